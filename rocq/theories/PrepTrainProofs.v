(** The prepared arguments suit the estimator (proofs). *)
From Verif Require Import Base Lp LpProofs TreeModel TreePricingModel TreeFitModel ExpModel SpecTree SpecTreeRun SpecTreeLp SpecTreePrice SpecTreeMip SpecTreeFit SpecTreeTrain SpecExp SpecPrep TreeGeoProofs
  TreePathProofs TreeLpBuild TreeBuildProofs TreeInvProofs TreeSolProofs ExpSplitProofs ExpCartProofs ExpReduceProofs ExpPathProofs ExpPreprocessProofs PrepMergeProofs PrepNodesProofs
  PrepPathsProofs PrepProofs PropTree PropTreeLp PropTreePrice PropTreeFit PropExpRows.
Open Scope nat_scope.

Lemma mark_tree_path d splits p : tree_path d splits (mark_initial p) <-> tree_path d splits p.
Proof. split; intros H; exact H. Qed.
Lemma tree_plain d splits p : tree_path d splits p -> plain_path d splits p.
Proof.
  intros (H1 & H2 & H3 & H4). split; auto. split; auto. rewrite (Permutation_length H2). apply create_leaf_length. auto.
Qed.

Lemma unique_in y z : In z (unique_classes y) <-> exists t, z = Z.of_nat t /\ In t y.
Proof.
  unfold unique_classes. rewrite in_map_iff. split.
  - intros (t & <- & H). apply filter_In in H. exists t. split; auto. apply memb_In. apply H.
  - intros (t & -> & H). exists t. split; auto. apply filter_In. split; [|apply memb_In; auto]. apply in_seq.
    pose proof (proj1 (list_max_le y (list_max y)) (le_n _)) as F. rewrite Forall_forall in F. specialize (F t H). lia.
Qed.
Lemma unique_contiguous y : contiguous y -> unique_classes y = map Z.of_nat (seq 0 (S (list_max y))).
Proof.
  intros H. unfold unique_classes. f_equal. assert (E : forall l, incl l (seq 0 (S (list_max y))) -> filter (fun t => memb t y) l = l).
  { induction l as [|a l IH]; intros Hl; [reflexivity|]. cbn [filter]. replace (memb a y) with true.
    - f_equal. apply IH. intros b Hb. apply Hl. right. auto.
    - symmetry. apply memb_In. apply H. specialize (Hl a (or_introl eq_refl)). apply in_seq in Hl. lia. }
  apply E. intros a Ha. exact Ha.
Qed.
Lemma in_sequence_nth {T} (f : T -> nat) (l : list T) : (forall i a, nth_error l i = Some a -> f a = i) -> in_sequence (map f l).
Proof.
  intros H k Hk. rewrite map_length in Hk. destruct (nth_error_some_lt l k Hk) as (a & E). rewrite nth_error_map, E. cbn [option_map]. f_equal. eauto.
Qed.

Lemma agrees_candidates d splits nodes tree p : complete_nodes d nodes -> tree_path d splits p -> tree_over d nodes tree -> agrees tree p -> uses_candidates nodes p.
Proof.
  intros [Hl _] (H1 & H2 & _) Ht Ha n k Hc. rewrite (Ha n k Hc).
  assert (Hlt : n < 2 ^ d - 1).
  { apply (proj2 (create_leaf_nodes (p_leaf p) d H1)). apply (Permutation_in _ H2). unfold choices in Hc. apply in_combine_l in Hc. exact Hc. }
  destruct (nth_error_some_lt nodes n) as (nd & E1); [lia|]. exists nd. split; [exact E1|]. apply (Ht n nd Hlt E1).
Qed.

Section Train.
Variables (d : nat) (cs : list cart) (final : cart) (extra : list cart) (X : list sample) (y : list nat).
Hypothesis Ex : experiment d cs final extra X y.
Variables (paths : list path) (nodes : list node) (splits : list split) (rows : list row) (tree : nat -> nat).
Variables (aggressive : bool) (limit : Q) (clk : nat -> Q).
Hypothesis Epre : preprocess nodes splits X y d aggressive limit clk = Ok (map (preprocess_node d) nodes, rows).
Hypothesis Oc : prep_result d cs final extra X y paths nodes splits tree.
Variables (it : Z) (tl : Q) (rd : nat) (beta gen old : bool).
Definition the_args : targs := prepared_args d y (paths, complete_leaves d, map (preprocess_node d) nodes, splits, rows) it tl rd beta gen old.
Definition before : setup := mkSetup d X y nodes splits (map mark_initial paths) beta gen rd None.

Lemma before_valid : valid_setup before.
Proof.
  destruct Oc. unfold valid_setup, before; cbn. split; [assumption|]. split; [|exact I].
  apply Forall_forall. intros p Hp. apply in_map_iff in Hp. destruct Hp as (q & <- & Hq). rewrite Forall_forall in oc_paths. destruct (oc_paths q Hq) as (H & _ & _).
  apply tree_plain in H. exact H.
Qed.
Lemma before_data : valid_data before.
Proof. destruct Oc, Ex. split; cbn; auto. Qed.
Lemma before_fresh : fresh_nodes before.
Proof. destruct Oc. exact oc_bottom. Qed.
Lemma before_pre : preprocessed before aggressive limit clk (fit_setup the_args X y).
Proof. exists (map (preprocess_node d) nodes), rows. split; [exact Epre|reflexivity]. Qed.
Lemma args_valid : valid_setup (fit_setup the_args X y) /\ valid_data (fit_setup the_args X y).
Proof.
  destruct (C52_runs before aggressive limit clk before_valid before_data before_fresh) as (u' & (n' & r' & E & Eu) & V & D).
  assert (Eq : Ok (n', r') = Ok (map (preprocess_node d) nodes, rows)) by (rewrite <- E; exact Epre). injection Eq as -> ->. subst u'. split; [exact V|exact D].
Qed.
Lemma args_agree : steady clk -> rows_agree (fit_setup the_args X y).
Proof. intros H. eapply C53_removed; [exact before_valid|exact before_data|exact before_fresh|exact H|exact before_pre]. Qed.

Lemma args_constructible : constructible the_args.
Proof.
  destruct Oc. pose proof oc_wf as W. destruct W as [_ _ [Hl Hn] _ Hs _ _ _ _]. split; [|split].
  - cbn. apply in_sequence_nth. intros i nd E. destruct (pre_nth d nodes i nd E) as (n0 & E0 & -> & _). eauto.
  - cbn. apply in_sequence_nth. intros i lf E. unfold complete_leaves in E. rewrite nth_error_map in E. destruct (nth_error (seq 0 (2 ^ d)) i) as [l|] eqn:El; [|discriminate E].
    cbn [option_map] in E. injection E as <-. assert (Hi : i < 2 ^ d) by (rewrite <- (seq_length (2 ^ d) 0); apply nth_error_Some; congruence).
    rewrite (nth_error_nth' _ 0), seq_nth in El by (rewrite ?seq_length; auto). injection El as <-. apply create_leaf_id. exact Hi.
  - cbn. apply Forall_forall. intros p Hp. rewrite Forall_forall in oc_paths. destruct (oc_paths p Hp) as ((H1 & H2 & H3 & H4) & (t & rs & Et & Ht & _) & _).
    assert (Hlen : length (p_nodes p) = d) by (rewrite (Permutation_length H2); apply create_leaf_length; auto).
    split; [|split; [|split; [|split; [|split]]]]; cbn; auto.
    + apply in_map_iff. exists (create_leaf (p_leaf p) d). split; [apply create_leaf_id; exact H1|]. unfold complete_leaves. apply (in_map (fun l => create_leaf l d)). apply in_seq. lia.
    + intros n Hn'. apply (Permutation_in _ H2) in Hn'.
      assert (Hb : n < length nodes). { rewrite Hl. apply (proj2 (create_leaf_nodes (p_leaf p) d H1)). exact Hn'. }
      destruct (nth_error_some_lt nodes n Hb) as (n0 & E0). destruct (pre_nth' d nodes n n0 E0) as (nd & E & Hid & _). apply in_map_iff. exists nd. split; [rewrite Hid; eauto|eapply nth_error_In; eauto].
    + intros q Hq. rewrite Forall_forall in H4. specialize (H4 q Hq). destruct (nth_error_some_lt splits q H4) as (s & E). apply in_map_iff. exists s. split; [eauto|eapply nth_error_In; eauto].
    + rewrite Et. apply unique_in. eauto.
Qed.

Lemma over_pre t : tree_over d (map (preprocess_node d) nodes) t <-> tree_over d nodes t.
Proof.
  unfold tree_over. split; intros H n nd Hn E.
  - destruct (pre_nth' d nodes n nd E) as (n1 & E1 & _ & <-). eauto.
  - destruct (pre_nth d nodes n nd E) as (n0 & E0 & _ & Hc). rewrite Hc. eauto.
Qed.
Lemma args_proper : initial_kept d cs final -> extra_kept d cs final extra -> Forall (uses_candidates nodes) paths.
Proof.
  intros K1 K2. destruct Oc. destruct oc_tree as (new & _ & E & Ha & Hn). rewrite E. apply Forall_app. split; [|apply Hn; assumption].
  apply Forall_forall. intros p Hp. assert (Hin : In p paths) by (rewrite E; apply in_or_app; auto). rewrite Forall_forall in oc_paths, Ha.
  destruct oc_wf as [_ _ Hn0 _ _ _ _ _ _]. apply (agrees_candidates d splits nodes tree); auto. apply (oc_paths p Hin).
Qed.
Definition tree_sel : list path := firstn (2 ^ d) paths.
Lemma sel_forms : initial_kept d cs final -> forms_tree (fit_setup the_args X y) tree tree_sel.
Proof.
  intros K. destruct Oc. destruct oc_tree as (new & Hp & _ & Ha & _). split; [|split; [exact Hp|exact Ha]]. cbn. apply over_pre. auto.
Qed.
Lemma sel_incl : incl tree_sel paths.
Proof. intros p Hp. rewrite <- (firstn_skipn (2 ^ d) paths). apply in_or_app. auto. Qed.
Lemma args_trainable : initial_kept d cs final -> extra_kept d cs final extra -> steady clk -> contiguous y -> (exists a b, In a y /\ In b y /\ a <> b) ->
  trainable the_args X y.
Proof.
  intros K1 K2 Hc Hy Hab. destruct args_valid as [V D]. constructor; auto.
  - apply args_agree. auto.
  - change (ta_targets the_args) with (unique_classes y). rewrite (unique_contiguous y Hy), map_length, seq_length. apply Permutation_refl.
  - change (ta_targets the_args) with (unique_classes y). rewrite (unique_contiguous y Hy), map_length, seq_length. apply Forall_forall. intros t Ht.
    pose proof (proj1 (list_max_le y (list_max y)) (le_n _)) as F. rewrite Forall_forall in F. specialize (F t Ht). lia.
  - unfold proper_paths. cbn. destruct Oc. pose proof (args_proper K1 K2) as Hu. rewrite Forall_forall in *. intros p Hp. split; [apply oc_paths; auto|]. apply pre_candidates. auto.
  - exists tree, tree_sel. split; [exact sel_incl|]. apply sel_forms. auto.
Qed.
End Train.

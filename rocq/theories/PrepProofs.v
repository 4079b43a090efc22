(** The whole preparation (proofs). *)
From Verif Require Import Base Lp LpProofs TreeModel TreePricingModel TreeFitModel ExpModel SpecTree SpecTreeRun SpecTreeLp SpecTreePrice SpecTreeMip SpecTreeTrain SpecExp SpecPrep TreeGeoProofs
  TreePathProofs TreeLpBuild TreeBuildProofs TreeInvProofs ExpSplitProofs ExpCartProofs ExpReduceProofs ExpPathProofs ExpPreprocessProofs PrepMergeProofs PrepNodesProofs
  PrepPathsProofs PropTree PropTreePrice PropExpRows.
Open Scope nat_scope.

Lemma dict_nth dep (nodes : ndict) i h nd : dict_keys dep nodes -> nth_error nodes i = Some (h, nd) -> h = i /\ assoc Nat.eqb nodes i = Some nd.
Proof.
  intros K E. assert (E1 : nth_error (map fst nodes) i = Some h) by (rewrite nth_error_map, E; reflexivity). rewrite K in E1.
  assert (Hi : i < 2 ^ dep - 1) by (rewrite <- (seq_length (2 ^ dep - 1) 0); apply nth_error_Some; congruence).
  rewrite (nth_error_nth' _ 0), seq_nth in E1 by (rewrite ?seq_length; auto). injection E1 as <-. split; auto.
  apply assoc_In; [rewrite K; apply seq_NoDup|]. eapply nth_error_In; eauto.
Qed.
Lemma dict_some dep (nodes : ndict) i : dict_keys dep nodes -> i < 2 ^ dep - 1 -> exists nd, nth_error nodes i = Some (i, nd) /\ assoc Nat.eqb nodes i = Some nd.
Proof.
  intros K Hi. assert (L : length nodes = 2 ^ dep - 1) by (rewrite <- (map_length fst), K, seq_length; auto).
  destruct (nth_error_some_lt nodes i) as ([h nd] & E); [lia|]. destruct (dict_nth _ _ _ _ _ K E) as [-> A]. eauto.
Qed.

Lemma finite_choice {A} (P : nat -> A -> Prop) : forall n, (forall i, i < n -> exists a, P i a) -> exists l, length l = n /\ forall i a, nth_error l i = Some a -> P i a.
Proof.
  induction n as [|n IH]; intros H; [exists []; split; auto; intros [|i] a E; discriminate|]. destruct IH as (l & L & Hl); [intros i Hi; apply H; lia|].
  destruct (H n) as (a & Ha); [lia|]. exists (l ++ [a]). rewrite app_length. cbn [length]. split; [lia|]. intros i b E. destruct (Nat.lt_ge_cases i (length l)) as [Hi|Hi].
  - rewrite nth_error_app1 in E by auto. auto.
  - rewrite nth_error_app2 in E by auto. destruct (i - length l) as [|j] eqn:Ej; [|destruct j; discriminate]. injection E as <-. replace i with n by lia. auto.
Qed.

Section Prepare.
Variables (d : nat) (cs : list cart) (final : cart) (extra : list cart) (X : list sample) (y : list nat).
Hypothesis Ex : experiment d cs final extra X y.

(** What the preparation computes. *)
Record prep_result (paths : list path) (nodes : list node) (splits : list split) (tree : nat -> nat) : Prop := {
  oc_wf : wf_tree d X nodes splits;
  oc_rows : Forall (fun s => NoDup (s_lrows s) /\ NoDup (s_rrows s)) splits;
  oc_bottom : Forall (fun n => n_bottom n = false) nodes;
  oc_paths : Forall (path_okay d X y splits) paths;
  oc_numbered : numbered paths;
  oc_differ : all_differ paths;
  oc_tree : exists new, Permutation (map p_leaf (firstn (2 ^ d) paths)) (seq 0 (2 ^ d)) /\ paths = firstn (2 ^ d) paths ++ new /\
    Forall (agrees tree) (firstn (2 ^ d) paths) /\
    (extra_kept d cs final extra -> Forall (uses_candidates nodes) new);
  oc_extra : forall c, In c extra -> full_tree d cs final c -> exists tree sel, incl sel paths /\ Permutation (map p_leaf sel) (seq 0 (2 ^ d)) /\
    Forall (agrees tree) sel /\ tree_over d nodes tree /\
    forall h f t, tests_at c h f t -> exists s, nth_error splits (tree h) = Some s /\ s_feature s = f /\ (s_threshold s == t)%Q;
  oc_range : forall n, n < 2 ^ d - 1 -> tree n < length splits;
  oc_kept : initial_kept d cs final -> tree_over d nodes tree;
  oc_final : forall h f t, tests_at final h f t -> exists s, nth_error splits (tree h) = Some s /\ s_feature s = f /\ (s_threshold s == t)%Q
}.

Lemma numbered_len (paths : list path) : (forall l p, nth_error paths l = Some p -> p_id p = l) -> numbered paths.
Proof.
  intros H. unfold numbered. apply nth_ext with (d := 0) (d' := 0); [rewrite map_length, seq_length; auto|]. rewrite map_length. intros n Hn. rewrite seq_nth by auto.
  destruct (nth_error_some_lt paths n Hn) as (p & E). erewrite nth_error_nth; [|rewrite nth_error_map, E; reflexivity]. apply H. auto.
Qed.

Lemma prepare_ok aggressive limit clk : exists paths nodes splits rows tree,
  prepare d cs final extra X y aggressive limit clk = Ok (paths, complete_leaves d, map (preprocess_node d) nodes, splits, rows) /\
  preprocess nodes splits X y d aggressive limit clk = Ok (map (preprocess_node d) nodes, rows) /\
  prep_result paths nodes splits tree.
Proof.
  destruct Ex as [Hd Hx Hy (m & HX & HC) Ht]. apply Forall_app in HC. destruct HC as [HC1 HC2]. inversion HC2 as [|? ? HC3 HC4]; subst.
  assert (HC : Forall (cart_for d m) (cs ++ [final])) by (apply Forall_app; auto).
  assert (Hck : Forall cart_ok (cs ++ [final])) by (eapply Forall_impl; [|exact HC]; intros c [H _]; exact H).
  destruct (all_nodes_ok d cs final Hck Ht) as (sn & reg & nodes0 & nodes1 & E1 & E2 & G & K & E3 & Kn & A).
  set (splits0 := map snd reg).
  assert (Hs0 : forall k s, nth_error splits0 k = Some s -> exists f t, s = new_split k f t /\ makes reg k f t /\ f < m).
  { intros k s E. unfold splits0 in E. rewrite nth_error_map in E. destruct (nth_error reg k) as [[[f t] s']|] eqn:Er; [|discriminate]. injection E as <-. cbn [snd].
    exists f, t. split; [apply (proj1 G _ _ _ _ Er)|]. split; [exists t, s'; split; auto; reflexivity|].
    destruct (proj1 (K f t)) as (c & h & t' & Hc & T & _); [exists t, s'; split; [eapply nth_error_In; eauto|reflexivity]|].
    rewrite Forall_forall in HC. apply (proj2 (HC c Hc) h f t' T). }
  assert (Hfit : Forall (fits splits0) X).
  { apply Forall_forall. intros x Hin s Hs. apply In_nth_error in Hs. destruct Hs as (k & Hk). destruct (Hs0 k s Hk) as (f & t & -> & _ & Hf). cbn [s_feature new_split].
    rewrite Forall_forall in HX. rewrite (HX x Hin). auto. }
  assert (Hlen : length splits0 = length reg) by (apply map_length).
  assert (HL : has_last d (length splits0) nodes1).
  { intros i Hi. destruct (dict_some d nodes1 i Kn Hi) as (nd & _ & Ea). destruct (A i nd Ea) as [_ _ _ (k & El & Hk) R _ _ _ _ _].
    exists nd, k. split; auto. split; auto. rewrite Hlen. rewrite Forall_forall in R. auto. }
  destruct (get_all_leaves_paths_ok nodes1 d splits0 X y Hy Hx Hfit HL) as (paths0 & E4 & L0 & P0).
  assert (E5 : by_id en_id nodes1 = Ok (map snd nodes1)).
  { apply by_id_ok. intros i [h nd] E. destruct (dict_nth _ _ _ _ _ Kn E) as [-> Ea]. apply (A i nd Ea). }
  destruct (reduce_splits_spec (map snd nodes1) splits0 (150 / (2 ^ d - 1)) (100 / (2 ^ d - 1))) as (nodes3 & splits1 & E6 & KB & Es1).
  { apply Forall_forall. intros nd Hin. apply in_map_iff in Hin. destruct Hin as ([h nd'] & <- & Hin). apply In_nth_error in Hin. destruct Hin as (i & E).
    destruct (dict_nth _ _ _ _ _ Kn E) as [-> Ea]. destruct (A i nd' Ea) as [_ H1 H2 _ _ _ _ _ _ _]. auto. }
  (* nodes after the reduction *)
  assert (N3 : forall i nd3, nth_error nodes3 i = Some nd3 -> exists nd, assoc Nat.eqb nodes1 i = Some nd /\ node_full cs final reg i nd /\ keeps_best (quota d i) nd nd3).
  { intros i nd3 E. destruct (Forall2_nth_r _ _ _ _ _ KB E) as (nd & En & B). rewrite nth_error_map in En. destruct (nth_error nodes1 i) as [[h nd']|] eqn:Ei; [|discriminate].
    injection En as <-. destruct (dict_nth _ _ _ _ _ Kn Ei) as [-> Ea]. exists nd'. split; auto. pose proof (A i nd' Ea) as F. split; auto. cbn [snd] in B.
    rewrite (nf_id _ _ _ _ _ F) in B. unfold quota. destruct (i =? 0); exact B. }
  assert (L3 : length nodes3 = 2 ^ d - 1).
  { rewrite <- (Forall2_length' _ _ _ KB), map_length, <- (map_length fst), Kn, seq_length. auto. }
  (* splits after the reduction *)
  assert (S1 : same_tests splits0 splits1).
  { rewrite Es1. clear. induction splits0; constructor; auto. }
  assert (Hfit1 : Forall (fits splits1) X) by (eapply Forall_impl; [|exact Hfit]; intros x; apply same_tests_fits; auto).
  assert (P1 : Forall (path_okay d X y splits1) paths0).
  { apply Forall_forall. intros p Hp. apply In_nth_error in Hp. destruct Hp as (l & El). destruct (P0 l p El) as (_ & _ & Hi & _ & _ & T & M).
    split; [exact (same_tests_path d splits0 splits1 p S1 T)|]. split; [exact (same_tests_majority d X y splits0 splits1 p S1 M)|auto]. }
  assert (Nu0 : numbered paths0) by (apply numbered_len; intros l p El; apply (P0 l p El)).
  assert (Di0 : all_differ paths0).
  { intros i j p q Hij Ep Eq (Hl & _). destruct (P0 i p Ep) as (E & _). destruct (P0 j q Eq) as (E' & _). lia. }
  (* the other trees *)
  assert (F5 : exists new, for_each extra
      (fun c paths => let* is_leaves := get_is_leaves (ct_count c) (ct_left c) (ct_right c) in
         let* tree_nodes := get_all_nodes c (ct_count c) is_leaves reg in
         add_tree_paths (complete_leaves d) tree_nodes d splits1 X y paths) paths0 = Ok (paths0 ++ new) /\
      Forall (path_okay d X y splits1) (paths0 ++ new) /\ numbered (paths0 ++ new) /\ all_differ (paths0 ++ new) /\
      Forall (fun p => forall n k, In (n, k) (choices p) -> exists c f t s, In c extra /\ tests_at c n f t /\ makes reg k f t /\
                 nth_error splits1 k = Some s /\ s_removed s = false) new /\
      (forall c, In c extra -> (forall h, h < 2 ^ d - 1 -> exists f t k s, tests_at c h f t /\ makes reg k f t /\ nth_error splits1 k = Some s /\ s_removed s = false) ->
         forall l, l < 2 ^ d -> exists p, In p (paths0 ++ new) /\ p_leaf p = l /\ forall n k, In (n, k) (choices p) -> exists f t, tests_at c n f t /\ makes reg k f t)).
  { match goal with |- context [for_each _ ?b _] =>
      destruct (for_each_steps extra b (fun u ps => exists new, ps = paths0 ++ new /\ Forall (path_okay d X y splits1) ps /\ numbered ps /\ all_differ ps /\
        Forall (fun p => forall n k, In (n, k) (choices p) -> exists c f t s, In c extra /\ tests_at c n f t /\ makes reg k f t /\
                 nth_error splits1 k = Some s /\ s_removed s = false) new /\
        (forall c, In c u -> (forall h, h < 2 ^ d - 1 -> exists f t k s, tests_at c h f t /\ makes reg k f t /\ nth_error splits1 k = Some s /\ s_removed s = false) ->
         forall l, l < 2 ^ d -> exists p, In p ps /\ p_leaf p = l /\ forall n k, In (n, k) (choices p) -> exists f t, tests_at c n f t /\ makes reg k f t)) paths0) as (ps & E & new & -> & H) end.
    - exists []. rewrite app_nil_r. do 5 (split; auto). intros c [].
    - intros u c v ps Eu (new & -> & HP & HN & HD & HU & HF).
      assert (Hc : In c extra) by (rewrite Eu; apply in_or_app; right; left; auto).
      assert (Cc : cart_ok c) by (rewrite Forall_forall in HC4; apply (HC4 c Hc)).
      destruct (is_leaves_ok c Cc) as (ls & El & _). rewrite El. cbn [bind].
      destruct (get_all_nodes_any c reg ls Cc El) as (ns & En & Nn & An). rewrite En. cbn [bind].
      assert (Hl : forall h nd k, assoc Nat.eqb ns h = Some nd -> en_last nd = Some k -> exists f t, tests_at c h f t /\ makes reg k f t).
      { intros h nd k Ea Ek. apply An in Ea. destruct Ea as (i & Hi & P & Ec). unfold cart_node in Ec.
        destruct (inner_test c i Cc Hi) as (f & t & T). pose proof T as (_ & Tf & Tt). rewrite (getitem_nth _ _ _ Tf), (getitem_nth _ _ _ Tt) in Ec. cbn [bind] in Ec.
        destruct (assoc skey_eqb reg (f, t)) as [s|] eqn:Es; injection Ec as <-; [|discriminate]. injection Ek as <-.
        destruct (assoc_some _ _ _ _ Es) as (t' & Hin & Heq). apply In_nth_error in Hin. destruct Hin as (k & Hk). pose proof (proj1 G _ _ _ _ Hk) as ->.
        exists f, t. split; [exists i; auto|]. cbn [s_id new_split]. exists t', (new_split k f t'). auto. }
      assert (Hl2 : forall h f t k, tests_at c h f t -> makes reg k f t -> exists nd, assoc Nat.eqb ns h = Some nd /\ en_last nd = Some k).
      { intros h f t k (i & P & T) M. assert (Ec : cart_node c reg i h = Ok (mkEn h [k] [1] (Some k))); [|exists (mkEn h [k] [1] (Some k)); split; auto; apply An; exists i; split; auto; apply T].
        unfold cart_node. pose proof T as (_ & Tf & Tt). rewrite (getitem_nth _ _ _ Tf). cbn [bind]. rewrite (getitem_nth _ _ _ Tt). cbn [bind].
        destruct (assoc skey_eqb reg (f, t)) as [s|] eqn:Es.
        - destruct (assoc_some _ _ _ _ Es) as (t' & Hin & Heq). apply In_nth_error in Hin. destruct Hin as (k' & Hk). pose proof (proj1 G _ _ _ _ Hk) as ->. cbn [s_id new_split].
          rewrite (makes_inj reg k' k f t' t G); auto. exists t', (new_split k' f t'). split; auto. reflexivity.
        - exfalso. apply assoc_none in Es. apply Es. destruct M as (t' & s & E & H). exists t', s. split; auto. eapply nth_error_In; eauto. }
      destruct (add_tree_ok ns d splits1 X y (fun h k => exists c f t s, In c extra /\ tests_at c h f t /\ makes reg k f t /\ nth_error splits1 k = Some s /\ s_removed s = false)
                  (paths0 ++ new)) as (new2 & E & HP' & HN' & HD' & HU' & HF'); auto.
      + intros h nd k Ea Ek. destruct (Hl h nd k Ea Ek) as (f & t & _ & M). rewrite <- (Forall2_length' _ _ _ S1), Hlen. eapply makes_lt; eauto.
      + intros h nd k s Ea Ek Es Er. destruct (Hl h nd k Ea Ek) as (f & t & T & M). exists c, f, t, s. auto.
      + exists ((paths0 ++ new) ++ new2). split; auto. exists (new ++ new2). rewrite <- app_assoc in *. split; [reflexivity|]. split; [exact HP'|]. split; [exact HN'|]. split; [exact HD'|]. split.
        * apply Forall_app. auto.
        * intros c' Hin Hfull l Hll. apply in_app_or in Hin. destruct Hin as [Hin|[<-|[]]].
          { destruct (HF c' Hin Hfull l Hll) as (p & Hp & H). exists p. split; auto. rewrite app_assoc. apply in_or_app. auto. }
          destruct (HF') with (l := l) as (p & Hp & Hpl & Hpc); auto.
          { intros h Hh. destruct (Hfull h Hh) as (f & t & k & s & T & M & Es & Er). destruct (Hl2 h f t k T M) as (nd & Ea & Ek). exists nd, k, s. auto. }
          exists p. split; auto. split; auto. intros n k Hin. destruct (Hpc n k Hin) as (nd & Ea & Ek). apply (Hl n nd k Ea Ek).
    - exists new. destruct H as (H1 & H2 & H3 & H4 & H5). do 5 (split; auto). }
  destruct F5 as (new & E7 & P7 & Nu7 & Di7 & U7 & F7).
  destruct (add_rows_ok splits1 X Hfit1) as (splits2 & E8 & O2 & Rec & ND).
  { rewrite Es1. apply Forall_forall. intros s Hs. apply in_map_iff in Hs. destruct Hs as (s0 & <- & Hs). apply In_nth_error in Hs. destruct Hs as (k & Hk).
    destruct (Hs0 k s0 Hk) as (f & t & -> & _). auto. }
  pose proof (same_other _ _ O2) as S2. pose proof (same_tests_trans _ _ _ S1 S2) as S02.
  assert (Hlen2 : length splits2 = length reg) by (rewrite <- (Forall2_length' _ _ _ S02); auto).
  assert (Hs2 : forall k s, nth_error splits2 k = Some s -> s_id s = k /\ exists t' s', nth_error reg k = Some ((s_feature s, t'), s') /\ t' = s_threshold s).
  { intros k s E. destruct (Forall2_nth_r _ _ _ _ _ S02 E) as (s0 & E0 & H1 & H2 & H3). rewrite H1, H2, H3.
    unfold splits0 in E0. rewrite nth_error_map in E0. destruct (nth_error reg k) as [[[f t] s']|] eqn:Er; [|discriminate]. injection E0 as <-. cbn [snd].
    pose proof (proj1 G _ _ _ _ Er) as ->. cbn [new_split s_id s_feature s_threshold]. split; auto. exists t, (new_split k f t). auto. }
  set (nodes := map plain_node nodes3).
  assert (Nn : forall i n, nth_error nodes i = Some n -> exists nd3, nth_error nodes3 i = Some nd3 /\ n = plain_node nd3).
  { intros i n E. unfold nodes in E. rewrite nth_error_map in E. destruct (nth_error nodes3 i) as [nd3|]; [|discriminate]. injection E as <-. eauto. }
  assert (W : wf_tree d X nodes splits2).
  { constructor; auto.
    - split; [unfold nodes; rewrite map_length; auto|]. intros i n E. destruct (Nn i n E) as (nd3 & E3' & ->). destruct (N3 i nd3 E3') as (nd & _ & F & B).
      cbn [n_id plain_node]. rewrite (kb_id _ _ _ B). apply F.
    - intros n Hin. apply In_nth_error in Hin. destruct Hin as (i & E). destruct (Nn i n E) as (nd3 & E3' & ->). destruct (N3 i nd3 E3') as (nd & _ & F & B).
      cbn [n_cands plain_node]. destruct (keeps_best_counts _ nd nd3 (nf_counts _ _ _ _ _ F) B) as [[_ N] I]. split; auto.
      apply Forall_forall. intros k Hk. pose proof (nf_range _ _ _ _ _ F) as R. rewrite Forall_forall in R. rewrite Hlen2. auto.
    - intros k s E. apply (Hs2 k s E).
    - intros i j s t Ei Ej Hne Hf He. destruct (Hs2 i s Ei) as (_ & t1 & s1 & R1 & H1). destruct (Hs2 j t Ej) as (_ & t2 & s2 & R2 & H2).
      apply Hne. rewrite Hf in R1. eapply (proj2 G); [exact R1|exact R2|]. rewrite H1, H2. auto.
    - eapply Forall_impl; [|exact Hfit]. intros x. apply same_tests_fits. auto.
    - intros s Hs. destruct (Forall2_In_r _ _ _ _ O2 Hs) as (s1 & Hs1 & _ & _ & _ & _ & H5 & H6). rewrite H5, H6. rewrite Es1 in Hs1. apply in_map_iff in Hs1.
      destruct Hs1 as (s0 & <- & Hs1). apply In_nth_error in Hs1. destruct Hs1 as (k & Hk). destruct (Hs0 k s0 Hk) as (f & t & -> & _). auto. }
  assert (Bot : Forall (fun n => n_bottom n = false) nodes).
  { apply Forall_forall. intros n Hin. apply in_map_iff in Hin. destruct Hin as (nd & <- & _). reflexivity. }
  destruct (preprocess_ok d X y nodes splits2 W Hy Bot aggressive limit clk) as (rows & rep & E9 & _).
  exists (paths0 ++ new), nodes, splits2, rows, (last_split nodes1). split; [|split; [exact E9|]].
  { unfold prepare. destruct (Nat.eqb_spec d 0) as [->|_]; [lia|]. cbv zeta. rewrite E1. cbn [bind]. rewrite E2. cbn [bind]. rewrite (splits_list_ok reg G). cbn [bind].
    fold splits0. rewrite E3. cbn [bind]. rewrite E4. cbn [bind]. rewrite E5. cbn [bind]. rewrite E6. cbn [bind]. rewrite E7. cbn [bind]. rewrite E8. cbn [bind].
    fold nodes. rewrite E9. reflexivity. }
  assert (FN : firstn (2 ^ d) (paths0 ++ new) = paths0).
  { rewrite <- L0, firstn_app, Nat.sub_diag, firstn_all, firstn_O, app_nil_r. reflexivity. }
  assert (Hnot : forall k s, nth_error splits1 k = Some s -> s_removed s = false -> exists i nd0, nth_error nodes3 i = Some nd0 /\ In k (en_cands nd0)).
  { intros k s Es Er. rewrite Es1, nth_error_map in Es. destruct (nth_error splits0 k) as [s0|] eqn:E0; [|discriminate]. injection Es as <-. destruct (Hs0 k s0 E0) as (f & t & -> & _).
    cbn [s_removed set_removed s_id new_split] in Er. apply negb_false_iff, memb_In, in_flat_map in Er. destruct Er as (nd0 & Hin & Hk). apply In_nth_error in Hin. destruct Hin as (i & Ei). eauto. }
  assert (Hyes : forall i nd0 k, nth_error nodes3 i = Some nd0 -> In k (en_cands nd0) -> k < length reg -> exists s, nth_error splits1 k = Some s /\ s_removed s = false).
  { intros i nd0 k Ei Hk Hlt. destruct (nth_error_some_lt splits0 k) as (s0 & E0); [lia|]. rewrite Es1, nth_error_map, E0. cbn [option_map]. eexists. split; [reflexivity|].
    destruct (Hs0 k s0 E0) as (f & t & -> & _). cbn [s_removed set_removed s_id new_split]. apply negb_false_iff, memb_In, in_flat_map. exists nd0. split; auto. eapply nth_error_In; eauto. }
  assert (extra_tree : forall c, In c extra -> full_tree d cs final c -> exists tree sel, incl sel (paths0 ++ new) /\ Permutation (map p_leaf sel) (seq 0 (2 ^ d)) /\
    Forall (agrees tree) sel /\ tree_over d nodes tree /\
    forall h f t, tests_at c h f t -> exists s, nth_error splits2 (tree h) = Some s /\ s_feature s = f /\ (s_threshold s == t)%Q).
  { intros c Hc Hfull.
    assert (Hk : forall h, h < 2 ^ d - 1 -> exists k, (exists f t, tests_at c h f t /\ makes reg k f t) /\ exists nd0, nth_error nodes3 h = Some nd0 /\ In k (en_cands nd0)).
    { intros h Hh. destruct (Hfull h Hh) as (f & t & T & Kp). destruct (proj2 (K f t)) as (t' & s & Hin & Ht').
      { destruct (proj1 Kp) as (c' & t1 & Hc' & T1 & Ht1). exists c', h, t1. auto. }
      apply In_nth_error in Hin. destruct Hin as (k & Ek). exists k. assert (M : makes reg k f t) by (exists t', s; auto). split; [exists f, t; auto|].
      destruct (nth_error_some_lt nodes3 h) as (nd0 & E0); [lia|]. exists nd0. split; auto. destruct (N3 h nd0 E0) as (nd & _ & F & B). eapply kept_stays; eauto. }
    destruct (finite_choice _ _ Hk) as (tl & Ltl & Htl). set (tree := fun h => nth h tl 0).
    assert (Htree : forall h, h < 2 ^ d - 1 -> (exists f t, tests_at c h f t /\ makes reg (tree h) f t) /\ exists nd0, nth_error nodes3 h = Some nd0 /\ In (tree h) (en_cands nd0)).
    { intros h Hh. apply Htl. unfold tree. apply nth_error_nth'. lia. }
    destruct (finite_choice (fun l p => In p (paths0 ++ new) /\ p_leaf p = l /\ forall n k, In (n, k) (choices p) -> exists f t, tests_at c n f t /\ makes reg k f t) (2 ^ d)) as (sel & Lsel & Hsel).
    { apply (F7 c Hc). intros h Hh. destruct (Htree h Hh) as [(f & t & T & M) (nd0 & E0 & Hin)]. destruct (Hyes h nd0 (tree h) E0 Hin (makes_lt _ _ _ _ M)) as (s & Es & Er).
      exists f, t, (tree h), s. auto. }
    exists tree, sel. split; [|split; [|split; [|split]]].
    - intros p Hp. apply In_nth_error in Hp. destruct Hp as (l & El). apply (Hsel l p El).
    - assert (map p_leaf sel = seq 0 (2 ^ d)) as ->; [|apply Permutation_refl]. rewrite <- Lsel.
      apply nth_ext with (d := 0) (d' := 0); [rewrite map_length, seq_length; auto|]. rewrite map_length. intros n Hn. rewrite seq_nth by auto.
      destruct (nth_error_some_lt sel n Hn) as (p & E). erewrite nth_error_nth; [|rewrite nth_error_map, E; reflexivity]. apply (Hsel n p E).
    - apply Forall_forall. intros p Hp. apply In_nth_error in Hp. destruct Hp as (l & El). destruct (Hsel l p El) as (_ & _ & Hc'). intros n k Hin.
      destruct (Hc' n k Hin) as (f & t & T & M). assert (Hn : n < 2 ^ d - 1) by (rewrite Forall_forall in HC4; apply (proj2 (HC4 c Hc) n f t T)).
      destruct (Htree n Hn) as [(f' & t' & T' & M') _]. destruct (tests_fun _ _ _ _ _ _ T T') as [<- <-]. eapply (makes_inj reg _ _ f t t G); eauto. reflexivity.
    - intros n nn Hn E. destruct (Nn n nn E) as (nd3 & E3' & ->). destruct (Htree n Hn) as [_ (nd0 & E0 & Hin)]. rewrite E3' in E0. injection E0 as <-. exact Hin.
    - intros h f t T. assert (Hh : h < 2 ^ d - 1) by (rewrite Forall_forall in HC4; apply (proj2 (HC4 c Hc) h f t T)).
      destruct (Htree h Hh) as [(f' & t' & T' & M') _]. destruct (tests_fun _ _ _ _ _ _ T T') as [<- <-]. destruct M' as (t1 & s1 & Er1 & Ht1).
      destruct (nth_error_some_lt splits2 (tree h)) as (s & Es); [rewrite Hlen2; apply nth_error_Some; congruence|]. exists s. split; auto.
      destruct (Hs2 (tree h) s Es) as (_ & t2 & s2 & Er2 & Ht2). rewrite Er1 in Er2. injection Er2 as -> -> _. split; auto. rewrite <- Ht2. auto. }
  constructor; auto.
  - eapply Forall_impl; [|exact P7]. intros p (T & M & I). split; [exact (same_tests_path d splits1 splits2 p S2 T)|].
    split; [exact (same_tests_majority d X y splits1 splits2 p S2 M)|exact I].
  - exists new. rewrite FN. split; [|split; [auto|split]].
    + assert (map p_leaf paths0 = seq 0 (2 ^ d)) as ->; [|apply Permutation_refl]. rewrite <- L0.
      apply nth_ext with (d := 0) (d' := 0); [rewrite map_length, seq_length; auto|]. rewrite map_length. intros n Hn. rewrite seq_nth by auto.
      destruct (nth_error_some_lt paths0 n Hn) as (p & E). erewrite nth_error_nth; [|rewrite nth_error_map, E; reflexivity]. apply (P0 n p E).
    + apply Forall_forall. intros p Hp. apply In_nth_error in Hp. destruct Hp as (l & El). destruct (P0 l p El) as (_ & _ & _ & _ & Esp & _).
      intros n k Hin. unfold choices in Hin. rewrite Esp in Hin. apply combine_nth_error in Hin. destruct Hin as (i & H1 & H2).
      rewrite nth_error_map, H1 in H2. injection H2 as <-. reflexivity.
    + intros HE. eapply Forall_impl; [|exact U7]. intros p H n k Hin. destruct (H n k Hin) as (c & f & t & s & Hc & T & M & Es & Er).
      assert (Hn : n < 2 ^ d - 1) by (rewrite Forall_forall in HC4; apply (proj2 (HC4 c Hc) n f t T)).
      destruct (nth_error_some_lt nodes3 n) as (nd3 & E3'); [lia|]. destruct (N3 n nd3 E3') as (nd & Ea & F & B).
      exists (plain_node nd3). split; [unfold nodes; rewrite nth_error_map, E3'; reflexivity|]. cbn [n_cands plain_node].
      destruct (HE c n f t Hc T) as [Hk|[Hnew|Hdrop]].
      * eapply kept_stays; eauto.
      * exfalso. destruct M as (t1 & s1 & Er1 & Ht1). destruct (proj1 (K f t)) as (c' & h' & t' & Hc' & T' & Heq).
        { exists t1, s1. split; auto. eapply nth_error_In; eauto. }
        apply (Hnew h'). exists c', t'. auto.
      * exfalso. destruct (Hnot k s Es Er) as (i & nd0 & Ei & Hk). destruct (N3 i nd0 Ei) as (nd1 & _ & F1 & B1).
        assert (Hi : i < 2 ^ d - 1) by (rewrite <- L3; apply nth_error_Some; congruence). exact (dropped_goes d cs final reg i nd1 nd0 f t k G F1 B1 (Hdrop i Hi) M Hk).
  - intros n Hn. destruct (HL n Hn) as (nd & k & Ea & El & Hk). unfold last_split. rewrite Ea, El. lia.
  - intros [H1000 HI] n nn Hn E. destruct (Nn n nn E) as (nd3 & E3' & ->). destruct (N3 n nd3 E3') as (nd & Ea & F & B). cbn [n_cands plain_node].
    unfold last_split. rewrite Ea. destruct (HI n Hn) as [Hq Hcase].
    assert (Hfav : has_test final n -> match en_last nd with Some k => In k (en_cands nd3) | None => In 0 (en_cands nd3) end).
    { intros Hh. destruct (favourite_kept (length cs) (quota d n) nd nd3 H1000 Hq) as (k & El & Hk); auto; try apply F; auto. rewrite El. auto. }
    assert (Hall : length (en_cands nd) <= quota d n -> match en_last nd with Some k => In k (en_cands nd3) | None => In 0 (en_cands nd3) end).
    { intros Hle. destruct (nf_last _ _ _ _ _ F) as (k & El & Hk). rewrite El. eapply all_kept; eauto. apply F. }
    assert (Hgoal : match en_last nd with Some k => In k (en_cands nd3) | None => In 0 (en_cands nd3) end).
    { destruct (nf_latest _ _ _ _ _ F) as [Hh|[E0|(k & f & t & El & Lt & M)]].
      - exact (Hfav Hh).
      - apply Hall. rewrite E0. cbn. auto.
      - destruct Hcase as [Hh|Hkeep]; [exact (Hfav Hh)|]. rewrite El. eapply kept_stays; eauto. }
    destruct (en_last nd); auto.
  - intros h f t T. assert (Hh : h < 2 ^ d - 1) by (apply (proj2 HC3 h f t T)). destruct (dict_some d nodes1 h Kn Hh) as (nd & _ & Ea).
    destruct (nf_final _ _ _ _ _ (A h nd Ea) f t T) as (k & El & t' & s' & Er & Heq). unfold last_split. rewrite Ea, El.
    assert (Hk : k < length splits2) by (rewrite Hlen2; apply nth_error_Some; congruence). destruct (nth_error_some_lt splits2 k Hk) as (s & Es). exists s. split; auto.
    destruct (Hs2 k s Es) as (_ & t1 & s1 & Er1 & Ht1). rewrite Er in Er1. injection Er1 as -> -> _. split; auto. rewrite <- Ht1. auto.
Qed.
End Prepare.

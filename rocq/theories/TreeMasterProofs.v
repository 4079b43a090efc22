(** Histories of the tree master problem. *)
From Verif Require Import Base Lp LpProofs TreeModel SpecTree TreeGeoProofs TreePathProofs TreeLpBuild TreeBuildProofs TreeGenProofs
  TreeInvProofs TreeOpProofs TreeCutProofs TreeFormProofs SpecTreeRun TreeRunProofs.
Open Scope nat_scope.

Definition uinv (u : setup) := tinv (su_depth u) (su_X u) (su_nodes u) (su_splits u).

Lemma rows_arg_ok u : valid_setup u -> rows_arg (su_X u) (su_rows u).
Proof. intros (_ & _ & H). destruct (su_rows u); auto. Qed.

Lemma do_op_frame o s cuts s' : do_op o s = Ok (cuts, s') -> tm_generated s = true ->
  (exists d X nodes splits kinds zs, wf_tree d X nodes splits /\ tinv d X nodes splits kinds zs s /\ legal d splits o) ->
  tm_iter s' = solves [o] + tm_iter s /\ tm_gen_cuts s' = tm_gen_cuts s /\ tm_rounds s' = tm_rounds s.
Proof.
  intros E G (d & X & nodes & splits & kinds & zs & wf & H & Hl).
  destruct o as [p| |sols|x|sv|ans|X' y']; cbn [do_op] in E; unfold solves; cbn [filter length plus].
  - destruct (add_column_ok d X nodes splits wf kinds zs s p H Hl) as (s1 & E1 & H1 & Hp & _ & _ & _ & _ & _ & Hi & Hb & Hg & Hr & _).
    rewrite E1 in E. cbn [bind] in E. injection E as <- <-. auto.
  - destruct (add_beta_cuts s) as [[num s1]|] eqn:E1; [|discriminate]. cbn [bind] in E. injection E as <- <-.
    destruct (add_beta_cuts_inv d X nodes splits kinds zs s num s1 H E1) as (new & rows & m & cs & added & Hr & -> & _). auto.
  - destruct (lookups_or_error s) as [[co Ec]|[e Ee]].
    + destruct (add_cuts_from d X nodes splits wf co kinds zs s sols H Ec) as (new & m & sp & ad & cs & s1 & E1 & -> & _); [intros; apply Hl|].
      rewrite E1 in E. injection E as <- <-. auto.
    + unfold add_cuts in E. rewrite Ee in E. discriminate.
  - injection E as <- <-. auto.
  - destruct (solve_rmp_ok d X nodes splits wf sv kinds zs s Hl H) as (k' & cuts' & s1 & dl & j & E1 & H1 & F1 & G1 & Hn & Hi & _). rewrite E1 in E. cbn [bind] in E.
    injection E as <- <-. destruct F1 as (_ & _ & _ & _ & f5 & f6 & _). auto.
  - unfold solve_ip in E. rewrite G in E. cbn [assert bind] in E. destruct ans as [x|]; [|discriminate]. cbn [bind] in E.
    injection E as <- <-. auto.
  - unfold generate_mp in E. rewrite G in E. cbn [bind] in E. injection E as <- <-. auto.
Qed.

Lemma run_ops_frame d X nodes splits (wf : wf_tree d X nodes splits) ops : forall s kinds zs cuts s', Forall (legal d splits) ops ->
  tinv d X nodes splits kinds zs s -> run_ops ops s = Ok (cuts, s') ->
  tm_iter s' = solves ops + tm_iter s /\ tm_gen_cuts s' = tm_gen_cuts s /\ tm_rounds s' = tm_rounds s.
Proof.
  induction ops as [|o ops IH]; intros s kinds zs cuts s' Hl H E; cbn [run_ops] in E.
  - injection E as <- <-. auto.
  - destruct (do_op o s) as [[c1 s1]|] eqn:E1; [|discriminate]. cbn [bind] in E.
    destruct (run_ops ops s1) as [[c2 s2]|] eqn:E2; [|discriminate]. cbn [bind] in E. injection E as <- <-.
    inversion Hl as [|? ? Ho Hos]; subst.
    destruct (do_op_inv d X nodes splits wf o s kinds zs c1 s1 Ho H E1) as (k1 & H1 & _).
    destruct (IH s1 k1 _ c2 s2 Hos H1 E2) as (A & B & C).
    destruct (do_op_frame o s c1 s1 E1 (ti_gen _ _ _ _ _ _ _ H)) as (A' & B' & C'); [do 6 eexists; eauto|].
    split; [|split; congruence]. rewrite A, A'. unfold solves. simpl. destruct o; simpl; lia.
Qed.

Lemma after_inv u ops cuts s : valid_setup u -> after u ops cuts s ->
  exists kinds, uinv u kinds cuts s /\ tm_beta_cuts s = su_beta u /\ tm_gen_cuts s = su_gen u /\ tm_rounds s = su_rounds u /\
    tm_iter s = solves ops /\
    Forall2 (fun p q => q = with_id p (p_id q)) (su_paths u ++ columns ops) (tm_paths s) /\
    exists rows, tm_rows s = Some rows /\ length rows = length (su_X u) /\
      (forall r, In (KRow r) kinds -> exists dr, nth_error rows r = Some dr /\ r_gone dr = false) /\
      (su_beta u = false -> forall r dr, nth_error rows r = Some dr -> r_gone dr = false -> In (KRow r) kinds) /\
      match su_rows u with
      | Some rows0 => Forall2 same_row rows rows0
      | None => exists rs0 ps, Forall2 same_row rows rs0 /\
          Forall2 (row_recorded (su_depth u) (su_splits u) ps (map (preprocess_node (su_depth u)) (su_nodes u))) (su_X u) rs0
      end.
Proof.
  intros V (Hl & s0 & E0 & E). pose proof V as (wf & Hp & Hr).
  destruct (generate_mp_ok _ _ _ _ wf (su_paths u) (su_beta u) (su_gen u) (su_rounds u) (su_rows u) (su_y u) Hp (rows_arg_ok u V))
    as (s0' & k0 & E0' & H0 & P0 & B0 & G0 & R0 & I0 & _ & _ & _ & _ & _ & _ & (rs & Hrs & Hk & Hm)).
  assert (s0' = s0) by (unfold su_leaves in E0; congruence). subst s0'.
  destruct (run_ops_inv _ _ _ _ wf ops s0 k0 [] cuts s Hl H0 E) as (k & H & Hi & B & P & R). cbn [app] in H.
  destruct (run_ops_frame _ _ _ _ wf ops s0 k0 [] cuts s Hl H0 E) as (I & G & Rn).
  exists k. split; auto. split; [congruence|]. split; [congruence|]. split; [congruence|]. split; [lia|]. split.
  { eapply with_ids_trans; [|exact P]. apply Forall2_app; auto. apply Forall2_refl. intros []. reflexivity. }
  destruct (R rs Hrs) as (rows & Hrows & F). exists rows. split; auto.
  destruct (ti_rows _ _ _ _ _ _ _ H) as (rows' & Hrows' & [Hlen _] & Hg). assert (rows' = rows) by congruence. subst rows'.
  split; auto. split; auto. split.
  { intros Eb r dr Hdr Hgone. apply Hi. apply Hk. split; auto. destruct (Forall2_nth_l _ _ _ _ _ F Hdr) as (dr' & Hdr' & Hs).
    exists dr'. split; auto. destruct Hs as (_ & _ & _ & _ & Eg & _). congruence. }
  destruct (su_rows u) as [rows0|].
  - destruct Hm as [Hm _]. eapply Forall2_trans'; [|exact F|exact Hm]. intros a b c (?&?&?&?&?&?&?) (?&?&?&?&?&?&?). repeat split; congruence.
  - destruct Hm as [Hm En]. exists rs, (tm_paths s0). split; auto. rewrite <- En. exact Hm.
Qed.

Lemma after_formulated u cuts s kinds : valid_setup u -> uinv u kinds cuts s -> formulated u (rows_of kinds) cuts kinds (cv_of (tm_ns_vars s)) s.
Proof. intros (wf & _) H. apply tinv_formulation; auto. Qed.

Lemma tm_path_ids u kinds zs s : uinv u kinds zs s -> NoDup (map p_id (tm_paths s)).
Proof. intros H. pose proof (lo_ids _ _ _ _ _ (ti_lp _ _ _ _ _ _ _ H)) as Hi. apply NoDup_app_l in Hi. auto. Qed.

Lemma NoDup_map_inv' {A B} (f : A -> B) l : NoDup (map f l) -> NoDup l.
Proof.
  induction l as [|a l IH]; simpl; intros H; [constructor|]. inversion H; subst. constructor; auto.
  intros Hin. apply H2. apply in_map. auto.
Qed.

Lemma covered_sum_iff X leaves splits c paths x v : NoDup paths ->
  (covered_sum X leaves splits c paths x v <-> (v == qsum (fun p => if covb X leaves splits c p then x (p_id p) else 0) paths)%Q).
Proof.
  intros Hn. rewrite qsum_if_filter. split.
  - intros (ps & Hd & Hin & ->). apply qsum_perm. apply NoDup_Permutation; auto.
    + apply NoDup_filter. auto.
    + intros p. rewrite Hin, filter_In, covb_iff. reflexivity.
  - intros E. exists (filter (covb X leaves splits c) paths). split; [apply NoDup_filter; auto|]. split; auto.
    intros p. rewrite filter_In, covb_iff. reflexivity.
Qed.

(** A decision tree meets every cut: exactly one of its paths is followed by an artificial row. *)
Lemma tree_row_one d splits tree (left_split : nat -> bool) sel : Permutation (map p_leaf sel) (seq 0 (2 ^ d)) ->
  Forall (tree_path d splits) sel -> Forall (agrees tree) sel ->
  exists p, In p sel /\ p_leaf p = leaf_reached d (fun n => left_split (tree n)) /\
    forall q, In q sel -> (follows (create_leaf (p_leaf q) d) left_split q <-> q = p).
Proof.
  intros Hperm Hp Ha. rewrite Forall_forall in Hp, Ha.
  assert (Hin : In (leaf_reached d (fun n => left_split (tree n))) (map p_leaf sel)).
  { apply (Permutation_in _ (Permutation_sym Hperm)). apply in_seq. pose proof (leaf_reached_lt d (fun n => left_split (tree n))). lia. }
  apply in_map_iff in Hin. destruct Hin as [p [E Hin]]. exists p. split; auto. split; auto.
  intros q Hq. rewrite (follows_tree d splits q (Hp q Hq) tree left_split (Ha q Hq)). rewrite <- E. split; [|congruence].
  intros El. symmetry in El. assert (Hd : NoDup (map p_leaf sel)) by (eapply Permutation_NoDup; [apply Permutation_sym; eauto|apply seq_NoDup]).
  clear - El Hd Hin Hq. induction sel as [|a ps IH]; [contradiction|]. simpl in Hd. inversion Hd as [|? ? Hni Hd']; subst.
  destruct Hin as [->|Hin], Hq as [->|Hq]; auto; exfalso; apply Hni.
  - rewrite <- El. apply in_map. auto.
  - rewrite El. apply in_map. auto.
Qed.

Lemma path_eq_dec (a b : path) : {a = b} + {a <> b}.
Proof.
  decide equality; try (apply list_eq_dec; apply Nat.eq_dec); try apply Nat.eq_dec; try apply Bool.bool_dec; try apply Z.eq_dec.
  destruct p_cost as [n1 d1], p_cost0 as [n2 d2]. destruct (Z.eq_dec n1 n2), (Pos.eq_dec d1 d2); [left|right|right|right]; congruence.
Defined.

Lemma tree_solution_sum d splits tree paths x (c : path -> bool) (left_split : nat -> bool) : NoDup paths ->
  tree_solution d splits tree paths x ->
  (forall p, In p paths -> tree_path d splits p -> (c p = true <-> follows (create_leaf (p_leaf p) d) left_split p)) ->
  (qsum (fun p => if c p then x (p_id p) else 0) paths == 1)%Q.
Proof.
  intros Hn (sel & Hi & Hperm & Hp & Ha & H1 & H0) Hc. destruct (tree_row_one d splits tree left_split sel Hperm Hp Ha) as (p & Hin & _ & Hu).
  assert (Hnd : NoDup sel).
  { apply (NoDup_map_inv' p_leaf). eapply Permutation_NoDup; [apply Permutation_sym; eauto|apply seq_NoDup]. }
  rewrite Forall_forall in Hp.
  pose proof path_eq_dec as Heq. assert (Hdec : forall q, {In q sel} + {~ In q sel}) by (intros q; apply in_dec; auto).
  rewrite (qsum_single Heq _ paths p); auto.
  - assert (E : c p = true) by (apply Hc; auto; apply Hu; auto). rewrite E. apply H1. auto.
  - intros q Hq Hne. destruct (c q) eqn:E; [|reflexivity]. destruct (Hdec q) as [Hs|Hs].
    + exfalso. apply Hne. apply Hu; auto. apply Hc; auto.
    + apply H0; auto.
Qed.

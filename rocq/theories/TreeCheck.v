(** Boolean checks for the hypotheses about tree classifiers' arguments, for concrete cases. *)
From Verif Require Import Base Lp TreeModel SpecTree TreeGeoProofs TreePathProofs TreeLpBuild SpecTreeRun SpecTreeLp TreeSolProofs.
Open Scope nat_scope.

Fixpoint nodupb (l : list nat) : bool := match l with [] => true | a :: l' => negb (memb a l') && nodupb l' end.
Lemma nodupb_ok l : nodupb l = true -> NoDup l.
Proof.
  induction l as [|a l IH]; intros H; [constructor|]. cbn [nodupb] in H. apply andb_true_iff in H. destruct H as [H1 H2]. constructor; auto.
  intros Hin. apply memb_In in Hin. rewrite Hin in H1. discriminate.
Qed.

Definition wf_treeb (d : nat) (X : list sample) (nodes : list node) (splits : list split) : bool :=
  (1 <=? d) && (0 <? length X) &&
  ((length nodes =? 2 ^ d - 1) && forallb (fun in_ => n_id (snd in_) =? fst in_) (combine (seq 0 (length nodes)) nodes)) &&
  forallb (fun n => nodupb (n_cands n) && forallb (fun k => k <? length splits) (n_cands n)) nodes &&
  forallb (fun is_ => s_id (snd is_) =? fst is_) (combine (seq 0 (length splits)) splits) &&
  forallb (fun s => forallb (fun t => (s_id s =? s_id t) || negb (s_feature s =? s_feature t) || negb (Qeq_bool (s_threshold s) (s_threshold t))) splits) splits &&
  forallb (fun x => forallb (fun s => s_feature s <? length x) splits) X &&
  forallb (fun s => forallb (fun r => r <? length X) (s_lrows s ++ s_rrows s) &&
    forallb (fun r => match nth_error X r with
                      | Some x => eqb (memb r (s_lrows s)) (sample_left x s) && eqb (memb r (s_rrows s)) (negb (sample_left x s))
                      | None => false end) (seq 0 (length X))) splits &&
  forallb (fun s => match s_lcuts s, s_rcuts s with [], [] => true | _, _ => false end) splits.

Lemma wf_treeb_ok d X nodes splits : wf_treeb d X nodes splits = true -> wf_tree d X nodes splits.
Proof.
  unfold wf_treeb. intros H. repeat (apply andb_true_iff in H; destruct H as [H ?]).
  apply Nat.leb_le in H. apply Nat.ltb_lt in H7. apply andb_true_iff in H6. destruct H6 as [H6 H8]. apply Nat.eqb_eq in H6.
  rewrite forallb_forall in H0, H1, H2, H3, H4, H5, H8.
  assert (Hin : forall A (l : list A) i a, nth_error l i = Some a -> In (i, a) (combine (seq 0 (length l)) l)).
  { intros A l i a E. apply (nth_error_In _ i).
    assert (G : forall (l : list A) k i, nth_error l i = Some a -> nth_error (combine (seq k (length l)) l) i = Some (k + i, a)).
    { clear. induction l as [|b l IH]; intros k [|i] E; simpl in *; try discriminate.
      - rewrite Nat.add_0_r. congruence.
      - rewrite (IH _ _ E). f_equal. f_equal. lia. }
    rewrite (G l 0 i E). reflexivity. }
  assert (Hid : forall k s, nth_error splits k = Some s -> s_id s = k).
  { intros k s E. apply Hin in E. apply H4 in E. apply Nat.eqb_eq in E. exact E. }
  split; auto.
  - split; [exact H6|]. intros i n E. apply Hin in E. apply H8 in E. apply Nat.eqb_eq in E. exact E.
  - intros n Hn. specialize (H5 n Hn). apply andb_true_iff in H5. destruct H5 as [A B]. split; [apply nodupb_ok; auto|].
    rewrite forallb_forall in B. apply Forall_forall. intros k Hk. apply Nat.ltb_lt. auto.
  - intros i j s t Ei Ej Hne Ef Eq. specialize (H3 s (nth_error_In _ _ Ei)). rewrite forallb_forall in H3. specialize (H3 t (nth_error_In _ _ Ej)).
    rewrite (Hid _ _ Ei), (Hid _ _ Ej) in H3. rewrite Ef, Nat.eqb_refl in H3. apply Qeq_bool_iff in Eq. rewrite Eq in H3.
    destruct (Nat.eqb_spec i j); [congruence|]. discriminate.
  - apply Forall_forall. intros x Hx s Hs. specialize (H2 x Hx). rewrite forallb_forall in H2. apply Nat.ltb_lt. auto.
  - intros s Hs. specialize (H1 s Hs). apply andb_true_iff in H1. destruct H1 as [A B]. rewrite forallb_forall in A, B.
    assert (G : forall r, r < length X -> exists x, nth_error X r = Some x /\ memb r (s_lrows s) = sample_left x s /\ memb r (s_rrows s) = negb (sample_left x s)).
    { intros r Hr. specialize (B r ltac:(apply in_seq; lia)). destruct (nth_error X r) as [x|]; [|discriminate]. exists x. split; auto.
      apply andb_true_iff in B. destruct B as [B1 B2]. split; apply eqb_prop; auto. }
    split; intros r; split.
    + intros Hr. destruct (G r) as (x & E & E1 & _); [apply Nat.ltb_lt, A, in_or_app; auto|]. exists x. split; auto. rewrite <- E1. apply memb_In. auto.
    + intros (x & E & E1). destruct (G r) as (x' & E' & E2 & _); [apply nth_error_Some; congruence|]. apply memb_In. congruence.
    + intros Hr. destruct (G r) as (x & E & _ & E1); [apply Nat.ltb_lt, A, in_or_app; auto|]. exists x. split; auto.
      apply memb_In in Hr. rewrite Hr in E1. destruct (sample_left x s); auto; discriminate.
    + intros (x & E & E1). destruct (G r) as (x' & E' & _ & E2); [apply nth_error_Some; congruence|]. apply memb_In. assert (x' = x) by congruence. subst.
      rewrite E1 in E2. exact E2.
  - intros s Hs. specialize (H0 s Hs). destruct (s_lcuts s), (s_rcuts s); auto; discriminate.
Qed.

Definition plain_pathb (d : nat) (splits : list split) (p : path) : bool :=
  (p_leaf p <? 2 ^ d) && (length (p_nodes p) =? d) && (length (p_splits p) =? d) && forallb (fun k => k <? length splits) (p_splits p).
Lemma plain_pathb_ok d splits p : plain_pathb d splits p = true -> plain_path d splits p.
Proof.
  unfold plain_pathb. intros H. repeat (apply andb_true_iff in H; destruct H as [H ?]). rewrite forallb_forall in H0.
  apply Nat.ltb_lt in H. apply Nat.eqb_eq in H1, H2. split; auto. split; auto. split; auto. apply Forall_forall. intros k Hk. apply Nat.ltb_lt. auto.
Qed.
Lemma valid_setup_ok u : wf_treeb (su_depth u) (su_X u) (su_nodes u) (su_splits u) && forallb (plain_pathb (su_depth u) (su_splits u)) (su_paths u) = true ->
  su_rows u = None -> valid_setup u.
Proof.
  intros H E. apply andb_true_iff in H. destruct H as [H1 H2]. split; [apply wf_treeb_ok; auto|]. split.
  - apply Forall_forall. rewrite forallb_forall in H2. intros p Hp. apply plain_pathb_ok. auto.
  - rewrite E. exact I.
Qed.

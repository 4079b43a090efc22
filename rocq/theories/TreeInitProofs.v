(** The constructor of DTreeClassifier (proofs). *)
From Verif Require Import Base Lp FitModel PropFit TreeModel TreeFitModel SpecTreeFit.
Open Scope nat_scope.

Definition ok_or_assert {T} (r : res T) (P : Prop) : Prop := (exists t, r = Ok t) /\ P \/ r = Err AssertionError /\ ~ P.

Lemma assert_dec : forall b (P : Prop), (b = true <-> P) -> ok_or_assert (assert b) P.
Proof.
  intros [] P H; cbn.
  - left. split; [exists tt; auto|tauto].
  - right. split; auto. intros K. apply H in K. discriminate.
Qed.

Lemma bind_dec : forall T U (r : res T) (f : T -> res U) (P Q : Prop),
  ok_or_assert r P -> (forall t, r = Ok t -> ok_or_assert (f t) Q) -> ok_or_assert (bind r f) (P /\ Q).
Proof.
  intros T U r f P Q [[[t E] HP]|[E HP]] Hf.
  - destruct (Hf t E) as [[[u Eu] HQ]|[Eu HQ]]; rewrite E; cbn [bind].
    + left. split; [eauto|tauto].
    + right. split; [auto|tauto].
  - right. rewrite E. cbn [bind]. split; [auto|tauto].
Qed.

Lemma iff_dec : forall T (r : res T) (P Q : Prop), ok_or_assert r P -> (P <-> Q) -> ok_or_assert r Q.
Proof. intros T r P Q [[E H]|[E H]] K; [left|right]; split; tauto. Qed.

Lemma each_dec : forall T (l : list T) (f : T -> res unit) (P : T -> Prop),
  (forall t, ok_or_assert (f t) (P t)) -> ok_or_assert (for_each l (fun t _ => f t) tt) (forall t, In t l -> P t).
Proof.
  intros T l f P Hf. induction l as [|t l IH]; cbn [for_each].
  - left. split; [eauto|]. intros t [].
  - eapply iff_dec; [apply bind_dec; [apply Hf|]|].
    + intros [] _. exact IH.
    + split; [intros [H1 H2] u [<-|Hu]; auto|intros H; split; [apply H; left; auto|intros u Hu; apply H; right; auto]].
Qed.

Lemma sequence_dec : forall ids k,
  ok_or_assert (for_each ids (fun id k => let* _ := assert (id =? k) in Ok (k + 1)) k) (forall j, j < length ids -> nth_error ids j = Some (k + j)).
Proof.
  induction ids as [|i ids IH]; intros k; cbn [for_each].
  - left. split; [eauto|]. cbn. intros j Hj. lia.
  - destruct (Nat.eqb_spec i k) as [->|Hne]; cbn [assert bind].
    + eapply iff_dec; [apply IH|]. split.
      * intros H [|j] Hj; cbn in *; [f_equal; lia|]. rewrite H by lia. f_equal. lia.
      * intros H j Hj. specialize (H (S j) ltac:(cbn; lia)). cbn in H. rewrite H. f_equal. lia.
    + right. split; auto. intros H. specialize (H 0 ltac:(cbn; lia)). cbn in H. injection H as H. lia.
Qed.

Lemma check_sequence_dec : forall ids, ok_or_assert (check_sequence ids) (in_sequence ids).
Proof. intros ids. apply (sequence_dec ids 0). Qed.

Lemma check_path_dec : forall A p,
  ok_or_assert (check_path (ta_depth A) (ta_targets A) (map l_id (ta_leaves A)) (map n_id (ta_nodes A)) (map s_id (ta_splits A)) p) (made_of A p).
Proof.
  intros A p. unfold check_path, made_of.
  apply bind_dec; [apply assert_dec, memb_In|intros _ _].
  apply bind_dec; [apply each_dec; intros t; apply assert_dec, memb_In|intros _ _].
  apply bind_dec; [apply each_dec; intros t; apply assert_dec, memb_In|intros _ _].
  apply bind_dec; [apply assert_dec|intros _ _].
  { rewrite existsb_exists. split.
    - intros (t & Ht & E). apply Z.eqb_eq in E. subst; auto.
    - intros H. exists (p_target p). split; auto. apply Z.eqb_refl. }
  apply bind_dec; [apply assert_dec, Nat.eqb_eq|intros _ _].
  apply assert_dec, Nat.eqb_eq.
Qed.

Lemma dtree_init_dec : forall A, ok_or_assert (dtree_init A) (constructible A).
Proof.
  intros A. unfold dtree_init, constructible.
  assert (C : construct (tree_levels A) (tree_levels A) = Ok tt) by (apply C59_constructor_shapes; auto).
  rewrite C. cbn [bind].
  eapply iff_dec; [apply bind_dec with (Q := True)|].
  - unfold check_arguments. apply bind_dec; [apply check_sequence_dec|intros _ _].
    apply bind_dec; [apply check_sequence_dec|intros _ _].
    apply each_dec. intros p. apply check_path_dec.
  - intros _ _. left. split; eauto.
  - rewrite Forall_forall. tauto.
Qed.

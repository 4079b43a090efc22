(** Rows of the experiment script: when two rows match, and what it means for paths. *)
From Verif Require Import Base Lp LpProofs TreeModel SpecTree TreeGeoProofs TreePathProofs TreeLpBuild TreeFormProofs TreeBuildProofs SpecTreeRun
  SpecTreeLp TreeLpProofs TreeReachProofs ExpModel.
Open Scope nat_scope.

Section Match.
Variables (d : nat) (nodes : list node).
Hypothesis Hd : 1 <= d.
Hypothesis Hnodes : complete_nodes d nodes.
Hypothesis Hbottom : forall n, In n nodes -> n_bottom n = true -> 2 ^ d - 1 <= 2 * n_id n + 1.
Let nodes1 := map (preprocess_node d) nodes.

(** Two sets of splits lead to the same nodes with the same sides of the candidates there. *)
Definition alike (a b : list nat) : Prop :=
  (forall n, n < 2 ^ d - 1 -> (reached nodes a n <-> reached nodes b n)) /\
  (forall n nd k, reached nodes a n -> nth_error nodes n = Some nd -> In k (n_cands nd) -> memb k a = memb k b).

Lemma node_lt n nd : nth_error nodes n = Some nd -> n < 2 ^ d - 1.
Proof. intros H. destruct Hnodes as [<- _]. apply nth_error_Some. congruence. Qed.
Lemma alike_refl a : alike a a.
Proof. split; [tauto|auto]. Qed.
Lemma alike_sym a b : alike a b -> alike b a.
Proof.
  intros [H1 H2]. split; [intros; symmetry; auto|]. intros n nd k Hr Hn Hk. symmetry. eapply H2; eauto. apply H1; auto. eapply node_lt; eauto.
Qed.
Lemma alike_trans a b c : alike a b -> alike b c -> alike a c.
Proof.
  intros [H1 H2] [K1 K2]. split; [intros n Hn; rewrite (H1 n Hn); auto|]. intros n nd k Hr Hn Hk. rewrite (H2 n nd k) by auto.
  eapply K2; eauto. apply H1; auto. eapply node_lt; eauto.
Qed.
Lemma alike_reached a b : alike a b -> forall m, reached nodes a m -> reached nodes b m.
Proof.
  intros [H1 H2] m H. induction H as [|n nd k H IH Hn Hk]; [constructor|]. rewrite (H2 n nd k) by auto. econstructor; eauto.
Qed.

(** The computed sets. *)
Lemma reach_spec a rn rl : reach a nodes1 = (rn, rl) ->
  (forall n, In n rn <-> n < 2 ^ d - 1 /\ reached nodes a n) /\ NoDup rl /\ (forall l, In l rl <-> reachable d nodes (fun k => memb k a) l).
Proof.
  intros E. split; [|eapply reach_leaves; eauto]. unfold reach in E. pose proof (reach_prefix d nodes Hd Hnodes Hbottom a [] _ ([], []) eq_refl) as H.
  unfold nodes1 in E. rewrite E in H. destruct H as (_ & H & _).
  { cbn [length]. split; [constructor|]. split; intros; simpl; (split; [tauto|]).
    - intros (_ & _ & [?|(p & b & ? & _)]); lia.
    - intros (p & b & ? & _). lia. }
  cbn [fst] in H. intros n. rewrite H. split; [tauto|]. intros [H1 H2]. split; auto. split; auto. left. destruct Hnodes as [-> _]. auto.
Qed.
Lemma alike_leaves a b rn rl rn' rl' : alike a b -> reach a nodes1 = (rn, rl) -> reach b nodes1 = (rn', rl') -> length rl = length rl'.
Proof.
  intros A E E'. destruct (reach_spec _ _ _ E) as (_ & N & H). destruct (reach_spec _ _ _ E') as (_ & N' & H').
  apply Permutation_length, NoDup_Permutation; auto. intros l. rewrite H, H'.
  assert (K : forall a b l, alike a b -> reachable d nodes (fun k => memb k a) l -> reachable d nodes (fun k => memb k b) l).
  { intros a' b' l' A' R. assert (Hl : l' < 2 ^ d) by apply R. apply reached_leaf in R; auto. apply reached_leaf; auto. eapply alike_reached; eauto. }
  split; apply K; auto using alike_sym.
Qed.

(** Rows that are alike follow the same paths. *)
Lemma alike_follows a b p splits : alike a b -> tree_path d splits p -> uses_candidates nodes p ->
  follows (create_leaf (p_leaf p) d) (fun k => memb k a) p -> follows (create_leaf (p_leaf p) d) (fun k => memb k b) p.
Proof.
  intros A Hp Hc F. destruct (tree_path_bits _ _ _ Hp) as (bits & L & N & _ & P).
  pose proof (proj1 (follows_bits _ _ _ Hp _ bits L N) F) as H. apply (follows_bits _ _ _ Hp _ bits L N).
  assert (R : rch nodes (fun k => memb k a) bits).
  { intros n c Hin. assert (Hn : In n (p_nodes p)) by (apply (Permutation_in _ (Permutation_sym P)), in_map_iff; exists (n, c); auto).
    destruct (combine_In_fst (p_nodes p) (p_splits p) n) as [k Hk]; [destruct (tree_path_lengths _ _ _ Hp); congruence|auto|].
    destruct (Hc n k Hk) as (nd & E & Hin'). exists nd, k. split; auto. split; auto.
    pose proof (H n k Hk) as H2. cbv beta in H2.
    exact (trail_functional _ _ _ _ H2 Hin). }
  intros n k Hk. destruct (Hc n k Hk) as (nd & E & Hin). destruct A as [_ A]. rewrite <- (A n nd k); auto.
  specialize (H n k Hk). cbv beta in H. destruct (proj1 (trail_split _ _ _ _) H) as (u & v & -> & ->).
  eapply reached_rch; eauto. eapply rch_prefix; eauto.
Qed.

(** rows_match decides it. *)
Lemma valid_splits ns acc : (forall n, In n ns -> n < 2 ^ d - 1) -> exists v,
  for_each ns (fun i acc => let* n := getitem nodes1 i in Ok (fold_left (fun acc s => set_add s acc) (n_cands n) acc)) acc = Ok v /\
  forall k, In k v <-> In k acc \/ exists n nd, In n ns /\ nth_error nodes n = Some nd /\ In k (n_cands nd).
Proof.
  revert acc. induction ns as [|n ns IH]; intros acc H; cbn [for_each].
  - exists acc. split; auto. intros k. split; auto. intros [?|(? & ? & [] & _)]; auto.
  - assert (Hn : n < length nodes) by (destruct Hnodes as [-> _]; apply H; left; auto). destruct (nth_error_some_lt nodes n Hn) as [nd E].
    assert (E1 : nth_error nodes1 n = Some (preprocess_node d nd)) by (unfold nodes1; rewrite nth_error_map, E; reflexivity).
    rewrite (getitem_nth _ _ _ E1). cbn [bind]. destruct (IH (fold_left (fun acc s => set_add s acc) (n_cands (preprocess_node d nd)) acc)) as (v & Ev & Hv);
      [intros; apply H; right; auto|].
    exists v. split; [exact Ev|]. intros k. rewrite Hv.
    assert (Ec : n_cands (preprocess_node d nd) = n_cands nd) by (unfold preprocess_node; destruct (2 ^ d - 1 <=? 2 * n_id nd + 1); auto). rewrite Ec.
    assert (Hf : forall l acc, In k (fold_left (fun acc s => set_add s acc) l acc) <-> In k acc \/ In k l).
    { clear. induction l as [|s l IH]; intros acc; cbn [fold_left In]; [tauto|]. rewrite IH, set_add_In. intuition. }
    rewrite Hf. split.
    + intros [[?|?]|(m & md & ? & ?)]; auto; right; [exists n, nd|exists m, md]; cbn; auto.
    + intros [?|(m & md & [<-|?] & E2 & ?)]; auto.
      * rewrite E in E2. injection E2 as <-. auto.
      * right. eauto.
Qed.
Lemma same_set_iff a b : same_set a b = true <-> forall x, In x a <-> In x b.
Proof.
  unfold same_set. rewrite andb_true_iff, !forallb_forall. split.
  - intros [H1 H2] x. split; intros H; [apply H1 in H|apply H2 in H]; apply memb_In in H; auto.
  - intros H. split; intros x Hx; apply memb_In, H; auto.
Qed.
Lemma rows_match_ok a b rl rl' : reach (r_left a) nodes1 = (r_nodes a, rl) -> reach (r_left b) nodes1 = (r_nodes b, rl') ->
  exists m, rows_match nodes1 a b = Ok m /\ (m = true <-> alike (r_left a) (r_left b)).
Proof.
  intros E E'. destruct (reach_spec _ _ _ E) as (H & _). destruct (reach_spec _ _ _ E') as (H' & _). unfold rows_match.
  destruct (same_set (r_nodes a) (r_nodes b)) eqn:S; cbn [negb].
  - destruct (valid_splits (r_nodes a) []) as (v & Ev & Hv); [intros n Hn; apply H in Hn; tauto|]. rewrite Ev. cbn [bind]. eexists. split; [reflexivity|].
    rewrite forallb_forall. rewrite same_set_iff in S. split.
    + intros Hm. split.
      * intros n Hn. split; intros Hr; [|]; [apply H'|apply H]; auto; apply S; [apply H|apply H']; auto.
      * intros n nd k Hr Hn Hk. apply eqb_prop. apply Hm. apply Hv. right. exists n, nd. split; auto. apply H. split; auto. eapply node_lt; eauto.
    + intros [_ A] k Hk. apply Hv in Hk. destruct Hk as [[]|(n & nd & Hn & En & Hk)]. apply H in Hn. rewrite (A n nd k) by tauto. apply eqb_reflx.
  - exists false. split; auto. split; [discriminate|]. intros [A _]. exfalso. assert (S' : same_set (r_nodes a) (r_nodes b) = true); [|congruence].
    apply same_set_iff. intros x. rewrite H, H'. split; intros [X1 X2]; split; auto; apply A; auto.
Qed.
End Match.

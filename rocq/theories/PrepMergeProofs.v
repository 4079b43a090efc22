(** Merging the nodes of CART trees, with counts (proofs). *)
From Verif Require Import Base Lp TreeModel ExpModel SpecTree SpecTreeRun SpecTreeLp SpecExp SpecPrep TreeBuildProofs TreeInvProofs ExpSplitProofs ExpCartProofs ExpReduceProofs TreePathProofs.
Open Scope nat_scope.

(** [nd'] is [nd] after [count] votes for split [k]. *)
Record voted (count k : nat) (nd nd' : enode) : Prop := {
  vo_id : en_id nd' = en_id nd;
  vo_last : en_last nd' = Some k;
  vo_counts : counts_ok nd';
  vo_cands : forall k', In k' (en_cands nd') <-> k' = k \/ In k' (en_cands nd);
  vo_other : forall q k', In (q, k') (counted_cands nd') -> k' <> k -> In (q, k') (counted_cands nd);
  vo_own : forall q, In (q, k) (counted_cands nd') -> count <= q /\ ((q = count /\ ~ In k (en_cands nd)) \/ exists q0, In (q0, k) (counted_cands nd) /\ q = q0 + count)
}.

Lemma index_of_ok k : forall l, In k l -> exists i, index_of k l = Ok i /\ nth_error l i = Some k.
Proof.
  induction l as [|a l IH]; intros H; [contradiction|]. cbn [index_of]. destruct (Nat.eqb_spec a k) as [->|Hne]; [exists 0; auto|].
  destruct H as [->|H]; [contradiction|]. destruct (IH H) as (i & -> & E). exists (S i). auto.
Qed.
Lemma combine_nth_error {A B} (l : list A) (m : list B) a b : In (a, b) (combine l m) <-> exists i, nth_error l i = Some a /\ nth_error m i = Some b.
Proof.
  revert m. induction l as [|x l IH]; intros [|z m]; cbn [combine]; split; try (intros []; fail); try (intros (i & H1 & H2); destruct i; discriminate).
  - intros [E|H]; [injection E as -> ->; exists 0; auto|]. apply IH in H. destruct H as [i H]. exists (S i). auto.
  - intros (i & H1 & H2). destruct i as [|i]; cbn [nth_error] in *; [injection H1 as ->; injection H2 as ->; left; auto|]. right. apply IH. eauto.
Qed.
Lemma NoDup_nth_eq {A} (l : list A) i j a : NoDup l -> nth_error l i = Some a -> nth_error l j = Some a -> i = j.
Proof.
  intros N Hi Hj. rewrite NoDup_nth_error in N. apply N; [apply nth_error_Some; congruence|congruence].
Qed.

Lemma merge_split_ok count k nd : counts_ok nd -> en_last nd = Some k -> exists nd', merge_split count k nd = Ok nd' /\ voted count k nd nd'.
Proof.
  intros [L N] El. unfold merge_split. destruct (memb k (en_cands nd)) eqn:Em.
  - apply memb_In in Em. destruct (index_of_ok k _ Em) as (i & -> & Ei). cbn [bind].
    assert (Hi : i < length (en_counts nd)) by (rewrite L; apply nth_error_Some; congruence).
    destruct (nth_error (en_counts nd) i) as [q|] eqn:Eq; [|apply nth_error_None in Eq; lia]. rewrite (getitem_nth _ _ _ Eq). cbn [bind].
    eexists. split; [reflexivity|]. constructor; cbn [en_id en_last en_cands en_counts]; auto.
    + split; cbn [en_cands en_counts]; [rewrite length_set_nth|]; auto.
    + intros k'. split; [auto|]. intros [->|H]; auto.
    + intros q' k' H Hne. unfold counted_cands in *. cbn [en_cands en_counts] in H. apply combine_nth_error in H. destruct H as (j & H1 & H2).
      apply combine_nth_error. exists j. split; auto. rewrite nth_error_set_nth_other in H1; auto. intros ->. congruence.
    + intros q' H. unfold counted_cands in *. cbn [en_cands en_counts] in H. apply combine_nth_error in H. destruct H as (j & H1 & H2).
      assert (j = i) by (eapply NoDup_nth_eq; eauto). subst j. rewrite nth_error_set_nth_same in H1 by auto. injection H1 as <-.
      split; [lia|]. right. exists q. split; auto. apply combine_nth_error. eauto.
  - apply memb_false in Em. eexists. split; [reflexivity|]. constructor; cbn [en_id en_last en_cands en_counts]; auto.
    + split; cbn [en_cands en_counts]; [rewrite !app_length, L; auto|]. apply NoDup_snoc; auto.
    + intros k'. rewrite in_app_iff. cbn [In]. intuition.
    + intros q' k' H Hne. unfold counted_cands in *. cbn [en_cands en_counts] in H. apply combine_nth_error in H. destruct H as (j & H1 & H2).
      apply combine_nth_error. exists j. destruct (Nat.lt_ge_cases j (length (en_cands nd))) as [Hj|Hj].
      * rewrite nth_error_app1 in H1 by lia. rewrite nth_error_app1 in H2 by lia. auto.
      * rewrite nth_error_app2 in H2 by lia. destruct (j - length (en_cands nd)) as [|n] eqn:En; cbn in H2; [injection H2 as ->; contradiction|].
        destruct n; discriminate.
    + intros q' H. unfold counted_cands in *. cbn [en_cands en_counts] in H. apply combine_nth_error in H. destruct H as (j & H1 & H2).
      destruct (Nat.lt_ge_cases j (length (en_cands nd))) as [Hj|Hj].
      * rewrite nth_error_app1 in H2 by lia. exfalso. apply Em. eapply nth_error_In; eauto.
      * assert (j = length (en_counts nd)).
        { assert (j < length (en_counts nd ++ [count])) by (apply nth_error_Some; congruence). rewrite app_length in H. cbn in H. lia. }
        subst j. rewrite nth_error_app2, Nat.sub_diag in H1 by lia. injection H1 as <-. auto.
Qed.
Lemma merge_node_ok count k h nd : counts_ok nd -> exists nd', merge_node count nd (mkEn h [k] [1] (Some k)) = Ok nd' /\ voted count k nd nd'.
Proof.
  intros H. unfold merge_node. cbn [en_cands en_last for_each].
  destruct (merge_split_ok count k (mkEn (en_id nd) (en_cands nd) (en_counts nd) (Some k)) H eq_refl) as (nd' & -> & V). cbn [bind].
  exists nd'. split; auto. destruct V as [V1 V2 V3 V4 V5 V6]. constructor; auto.
Qed.

Lemma merge_all_ok count d2 : forall d1 : ndict, NoDup (map fst d2) ->
  (forall h nd nd2, assoc Nat.eqb d1 h = Some nd -> In (h, nd2) d2 -> exists nd', merge_node count nd nd2 = Ok nd') ->
  exists d', merge_all_nodes count d1 d2 = Ok d' /\ map fst d' = map fst d1 /\
    forall h, assoc Nat.eqb d' h = match assoc Nat.eqb d1 h with
                                   | None => None
                                   | Some nd => match assoc Nat.eqb d2 h with
                                                | None => Some nd
                                                | Some nd2 => match merge_node count nd nd2 with Ok nd' => Some nd' | Err _ => None end
                                                end
                                   end.
Proof.
  induction d2 as [|[h2 nd2] d2 IH]; intros d1 N Hok.
  - exists d1. split; auto. split; auto. intros h. cbn [assoc]. destruct (assoc Nat.eqb d1 h); auto.
  - cbn [map fst] in N. inversion N as [|? ? Hni N']; subst. unfold merge_all_nodes. cbn [for_each fst snd].
    assert (Hmiss : assoc Nat.eqb d2 h2 = None).
    { destruct (assoc Nat.eqb d2 h2) eqn:E; auto. exfalso. apply Hni. clear -E. induction d2 as [|[k a] d2 IH]; cbn [assoc] in E; [discriminate|].
      destruct (Nat.eqb_spec k h2) as [->|]; [left; auto|right; auto]. }
    destruct (assoc Nat.eqb d1 h2) as [nd|] eqn:E1.
    + destruct (Hok h2 nd nd2 E1 (or_introl eq_refl)) as (nd' & Em). rewrite Em. cbn [bind].
      destruct (IH (assoc_set Nat.eqb d1 h2 nd') N') as (d' & E & K & A).
      { intros h a b Ha Hb. rewrite (assoc_assoc_set Nat.eqb Nat.eqb_eq) in Ha. destruct (Nat.eqb_spec h2 h) as [<-|Hne].
        - exfalso. apply Hni. apply (in_map fst) in Hb. exact Hb.
        - eapply Hok; eauto. right. auto. }
      exists d'. split; [exact E|]. split.
      * rewrite K. apply assoc_set_nth; [apply Nat.eqb_eq|]. clear -E1. induction d1 as [|[k a] d1 IH]; cbn [assoc] in E1; [discriminate|].
        destruct (Nat.eqb_spec k h2) as [->|]; [left; auto|right; auto].
      * intros h. rewrite A, (assoc_assoc_set Nat.eqb Nat.eqb_eq). cbn [assoc]. destruct (Nat.eqb_spec h2 h) as [<-|Hne]; auto.
        rewrite Hmiss, E1, Em. reflexivity.
    + cbn [bind]. destruct (IH d1 N') as (d' & E & K & A); [intros h a b Ha Hb; eapply Hok; eauto; right; auto|].
      exists d'. split; [exact E|]. split; auto. intros h. rewrite A. cbn [assoc]. destruct (Nat.eqb_spec h2 h) as [<-|Hne]; auto.
      rewrite E1. reflexivity.
Qed.

Lemma assoc_In {A} (d : list (nat * A)) h a : NoDup (map fst d) -> (assoc Nat.eqb d h = Some a <-> In (h, a) d).
Proof.
  induction d as [|[k b] d IH]; cbn [map fst assoc]; intros N; [split; [discriminate|contradiction]|]. inversion N as [|? ? Hni N']; subst.
  destruct (Nat.eqb_spec k h) as [->|Hne]; [|rewrite IH by auto; cbn [In]; split; [auto|intros [E|H]; [congruence|auto]]].
  split; [intros E; injection E as ->; left; auto|]. intros [E|H]; [congruence|]. exfalso. apply Hni. apply (in_map fst) in H. exact H.
Qed.
Lemma assoc_dom {A} (d : list (nat * A)) h : In h (map fst d) <-> exists a, assoc Nat.eqb d h = Some a.
Proof.
  induction d as [|[k b] d IH]; cbn [map fst assoc]; [split; [contradiction|intros (a & E); discriminate]|].
  destruct (Nat.eqb_spec k h) as [->|Hne]; [split; [eauto|left; auto]|]. rewrite <- IH. cbn [In]. intuition.
Qed.

(** * One more tree *)
Lemma tested_key c d h f t : tests_at c h f t -> (forall i f t, cart_test c i f t -> has_key d f t) -> has_key d f t.
Proof. intros (i & _ & T) H. eauto. Qed.

Lemma add_cart_ok count c d nodes : cart_ok c -> good_registry d -> (forall h nd, assoc Nat.eqb nodes h = Some nd -> counts_ok nd) ->
  exists d' nodes', add_cart count c (d, nodes) = Ok (d', nodes') /\ good_registry d' /\ (exists new, d' = d ++ new) /\
    (forall f t, has_key d' f t <-> has_key d f t \/ exists h t', tests_at c h f t' /\ (t' == t)%Q) /\
    map fst nodes' = map fst nodes /\
    forall h nd', assoc Nat.eqb nodes' h = Some nd' -> exists nd, assoc Nat.eqb nodes h = Some nd /\
      ((~ has_test c h /\ nd' = nd) \/
       exists k f t t' s, tests_at c h f t /\ nth_error d' k = Some ((f, t'), s) /\ (t' == t)%Q /\ voted count k nd nd').
Proof.
  intros C G Hc. unfold add_cart. cbn [fst snd]. destruct (is_leaves_ok c C) as (ls & El & _). rewrite El. cbn [bind].
  destruct (get_all_splits_spec c ls C El) as (e & Ee & _ & Ke). rewrite Ee. cbn [bind].
  destruct (merge_spec e d G) as (G' & New & K'). set (d' := merge_all_splits d e) in *.
  assert (Hk : forall i f t, cart_test c i f t -> has_key d' f t).
  { intros i f t T. apply K'. right. apply Ke. exists i, t. split; auto. reflexivity. }
  destruct (get_all_nodes_spec c d' ls C G' Hk El) as (ns & En & N & A). rewrite En. cbn [bind].
  destruct (merge_all_ok count ns nodes N) as (nodes' & E & Kn & An).
  { intros h nd nd2 Ha Hin. apply (assoc_In ns h nd2 N) in Hin. apply A in Hin. destruct Hin as (i & _ & _ & f & t & k & t' & s & _ & _ & _ & ->).
    destruct (merge_node_ok count k h nd (Hc h nd Ha)) as (nd' & E & _). eauto. }
  exists d', nodes'. rewrite E. cbn [bind]. split; auto. split; auto. split; auto. split; [|split; auto].
  - intros f t. rewrite K', Ke. split; (intros [H|H]; [auto|right]).
    + destruct H as (i & t' & T & Ht). destruct (positioned_total c i C (inner_lt c i (proj1 T))) as (h & P). exists h, t'. split; auto. exists i. auto.
    + destruct H as (h & t' & (i & _ & T) & Ht). eauto.
  - intros h nd' H. rewrite An in H. destruct (assoc Nat.eqb nodes h) as [nd|] eqn:E1; [|discriminate]. exists nd. split; auto.
    destruct (assoc Nat.eqb ns h) as [nd2|] eqn:E2.
    + right. apply A in E2. destruct E2 as (i & Hi & P & f & t & k & t' & s & T & Hn & Ht & ->).
      destruct (merge_node_ok count k h nd (Hc h nd E1)) as (nd1 & Em & V). rewrite Em in H. injection H as <-.
      exists k, f, t, t', s. split; [exists i; auto|]. auto.
    + left. injection H as <-. split; auto. intros (f & t & i & P & T).
      destruct (cart_node_ok c d' i h C G' (proj1 T) (Hk i)) as (nd2 & _ & Hn).
      assert (assoc Nat.eqb ns h = Some nd2) by (apply A; exists i; split; [apply T|auto]). congruence.
Qed.

(** Renumbering the nodes of a CART tree (proofs). *)
From Verif Require Import Base Lp TreeModel ExpModel SpecTree SpecExp TreePathProofs TreeLpBuild TreeBuildProofs TreeInvProofs ExpSplitProofs.
Open Scope nat_scope.

Section AssocSet.
Context {K A : Type} (eqb : K -> K -> bool).
Hypothesis eqb_iff : forall a b, eqb a b = true <-> a = b.
Lemma assoc_assoc_set (d : list (K * A)) k a k' : assoc eqb (assoc_set eqb d k a) k' = if eqb k k' then Some a else assoc eqb d k'.
Proof.
  induction d as [|[k1 a1] d IH]; cbn [assoc_set assoc].
  - reflexivity.
  - destruct (eqb k1 k) eqn:E1; cbn [assoc].
    + apply eqb_iff in E1. subst k1. destruct (eqb k k'); auto.
    + rewrite IH. destruct (eqb k1 k') eqn:E2; auto. apply eqb_iff in E2. subst k1. destruct (eqb k k') eqn:E3; auto.
      apply eqb_iff in E3. subst. assert (eqb k' k' = true) by (apply eqb_iff; auto). congruence.
Qed.
Lemma assoc_set_keys (d : list (K * A)) k a : NoDup (map fst d) -> NoDup (map fst (assoc_set eqb d k a)) /\
  (forall x, In x (map fst (assoc_set eqb d k a)) <-> x = k \/ In x (map fst d)).
Proof.
  induction d as [|[k1 a1] d IH]; cbn [assoc_set map fst]; intros N.
  - split; [constructor; [intros []|constructor]|]. intros x. cbn. split; intros [|]; auto.
  - inversion N as [|? ? N1 N2]; subst. destruct (eqb k1 k) eqn:E; cbn [map fst].
    + apply eqb_iff in E. subst. split; auto. intros x. cbn. split; [auto|]. intros [->|H]; auto.
    + destruct (IH N2) as [I1 I2]. split.
      * constructor; auto. intros H. apply I2 in H. destruct H as [->|H]; auto. assert (eqb k k = true) by (apply eqb_iff; auto). congruence.
      * intros x. cbn. rewrite I2. tauto.
Qed.
(** Values are replaced in place. *)
Lemma assoc_set_nth (d : list (K * A)) k a : In k (map fst d) -> map fst (assoc_set eqb d k a) = map fst d.
Proof.
  induction d as [|[k1 a1] d IH]; cbn [assoc_set map fst]; intros H; [contradiction|].
  destruct (eqb k1 k) eqn:E; cbn [map fst]; auto. destruct H as [->|H].
  - assert (eqb k k = true) by (apply eqb_iff; auto). congruence.
  - rewrite IH; auto.
Qed.
End AssocSet.

(** * Positions *)
Lemma positioned_lt c i h : cart_ok c -> positioned c i h -> i < ct_count c.
Proof.
  intros C P. destruct P as [|i j h P H|i j h P H]; [apply (ck_some c C)|apply (ck_later c C _ _ _ H)|apply (ck_later c C _ _ _ H)].
Qed.
Lemma positioned_unique c i h : cart_ok c -> positioned c i h -> forall h', positioned c i h' -> h = h'.
Proof.
  intros C P. induction P as [|i j h P IH H|i j h P IH H]; intros h' P'.
  - inversion P' as [|i j h1 P1 H1|i j h1 P1 H1]; subst; auto; destruct (ck_later c C _ _ _ H1); lia.
  - inversion P' as [E|i1 j1 h1 P1 H1|i1 j1 h1 P1 H1]; subst.
    + destruct (ck_later c C _ _ _ H); lia.
    + destruct (ck_unique c C _ _ _ _ _ H H1) as [<- _]. rewrite (IH _ P1). reflexivity.
    + destruct (ck_unique c C _ _ _ _ _ H H1) as [_ E]. discriminate.
  - inversion P' as [E|i1 j1 h1 P1 H1|i1 j1 h1 P1 H1]; subst.
    + destruct (ck_later c C _ _ _ H); lia.
    + destruct (ck_unique c C _ _ _ _ _ H H1) as [_ E]. discriminate.
    + destruct (ck_unique c C _ _ _ _ _ H H1) as [<- _]. rewrite (IH _ P1). reflexivity.
Qed.
Lemma cart_child_fun c i side j j' : cart_child c i side j -> cart_child c i side j' -> j = j'.
Proof. intros [_ H] [_ H']. rewrite H in H'. injection H' as H'. lia. Qed.
Lemma positioned_inj c i h : positioned c i h -> forall i', positioned c i' h -> i = i'.
Proof.
  intros P. induction P as [|i j h P IH H|i j h P IH H]; intros i' P'; inversion P' as [E1 E2|i1 j1 h1 P1 H1 E1 E2|i1 j1 h1 P1 H1 E1 E2]; subst; try lia; auto.
  - assert (h1 = h) by lia. subst. rewrite <- (IH _ P1) in H1. eapply cart_child_fun; eauto.
  - assert (h1 = h) by lia. subst. rewrite <- (IH _ P1) in H1. eapply cart_child_fun; eauto.
Qed.
Lemma positioned_total c i : cart_ok c -> i < ct_count c -> exists h, positioned c i h.
Proof.
  intros C. induction i as [i IH] using (well_founded_induction lt_wf). intros Hi.
  destruct i as [|i]; [exists 0; constructor|].
  destruct (ck_parent c C (S i) ltac:(lia) Hi) as (p & side & H). destruct (ck_later c C _ _ _ H) as [H1 _].
  destruct (IH p ltac:(lia) ltac:(lia)) as (h & P). destruct side; [exists (2 * h + 1)|exists (2 * h + 2)]; econstructor; eauto.
Qed.

(** * get_all_nodes *)
Lemma cart_node_ok c d i h : cart_ok c -> good_registry d -> inner c i ->
  (forall f t, cart_test c i f t -> has_key d f t) -> exists nd, cart_node c d i h = Ok nd /\ node_for c d i h nd.
Proof.
  intros C G Hi Hk. destruct (inner_test c i C Hi) as (f & t & T). destruct (assoc_has d f t (Hk f t T)) as (s & Es).
  destruct (assoc_some _ _ _ _ Es) as (t' & Hin & Ht). apply In_nth_error in Hin. destruct Hin as (k & Hk').
  destruct G as [G1 _]. pose proof (G1 _ _ _ _ Hk') as Hs. exists (mkEn h [k] [1] (Some k)). unfold cart_node.
  destruct T as (T0 & Tf & Tt). rewrite (getitem_nth _ _ _ Tf). cbn [bind]. rewrite (getitem_nth _ _ _ Tt). cbn [bind]. rewrite Es.
  rewrite Hs. cbn [s_id new_split]. split; auto. exists f, t, k, t', s. split; [split; auto|]. auto.
Qed.

Lemma node_for_fun c d i h nd nd' : good_registry d -> node_for c d i h nd -> node_for c d i h nd' -> nd = nd'.
Proof.
  intros [_ G] (f & t & k & t' & s & (_ & T1 & T2) & Hk & Ht & ->) (f2 & t2 & k2 & t2' & s2 & (_ & U1 & U2) & Hk2 & Ht2 & ->).
  rewrite T1 in U1. rewrite T2 in U2. injection U1 as <-. injection U2 as <-.
  assert (k = k2) by (eapply G; eauto; rewrite Ht, Ht2; reflexivity). subst. reflexivity.
Qed.

Definition nodes_upto (c : cart) (d : registry) (k : nat) (ns : ndict) : Prop :=
  NoDup (map fst ns) /\ forall h nd, assoc Nat.eqb ns h = Some nd <-> exists i, i < k /\ inner c i /\ positioned c i h /\ cart_node c d i h = Ok nd.
Definition mapping_upto (c : cart) (k : nat) (m : list (Z * nat)) : Prop :=
  forall j h, assoc Z.eqb m (Z.of_nat j) = Some h <-> positioned c j h /\ (j = 0 \/ exists i side, i < k /\ cart_child c i side j).

Lemma cart_node_some c d i h : cart_ok c -> inner c i -> exists nd, cart_node c d i h = Ok nd.
Proof.
  intros C Hi. destruct (inner_test c i C Hi) as (f & t & _ & Tf & Tt). unfold cart_node.
  rewrite (getitem_nth _ _ _ Tf). cbn [bind]. rewrite (getitem_nth _ _ _ Tt). cbn [bind]. eauto.
Qed.
Lemma get_all_nodes_any c d ls : cart_ok c -> get_is_leaves (ct_count c) (ct_left c) (ct_right c) = Ok ls ->
  exists ns, get_all_nodes c (ct_count c) ls d = Ok ns /\ NoDup (map fst ns) /\
    forall h nd, assoc Nat.eqb ns h = Some nd <-> exists i, inner c i /\ positioned c i h /\ cart_node c d i h = Ok nd.
Proof.
  intros C El. destruct (is_leaves_ok c C) as (ls' & E' & L & I & N). rewrite El in E'. injection E' as <-.
  unfold get_all_nodes.
  match goal with |- context [for_each _ ?b _] =>
    destruct (for_each_steps (seq 0 (ct_count c)) b (fun u nm => nodes_upto c d (length u) (fst nm) /\ mapping_upto c (length u) (snd nm)) ([], [(0%Z, 0)]))
      as ([ns m] & E & [H1 H2] & _) end.
  - cbn [fst snd length]. split; [split; [constructor|]|].
    + intros h nd. cbn. split; [discriminate|]. intros (i & Hi & _). lia.
    + intros j h. cbn [assoc]. destruct (Z.eqb_spec 0 (Z.of_nat j)) as [Ej|Ej].
      * assert (j = 0) by lia. subst. split; [intros E; injection E as <-; split; [constructor|auto]|].
        intros [P _]. rewrite (positioned_unique c 0 h C P 0 (at_root c)). reflexivity.
      * split; [discriminate|]. intros [_ [->|(i & side & Hi & _)]]; [exfalso; apply Ej; reflexivity|lia].
  - intros u i v [ns m] Eu ((N1 & N2) & M). cbn [fst snd] in *.
    assert (Hu : i = length u).
    { assert (X : nth_error (seq 0 (ct_count c)) (length u) = Some i) by (rewrite Eu, nth_error_app2, Nat.sub_diag by auto; reflexivity).
      assert (Hl : length u < ct_count c) by (rewrite <- (seq_length (ct_count c) 0), Eu, app_length; cbn; lia).
      rewrite (nth_error_nth' _ 0) in X by (rewrite seq_length; auto). rewrite seq_nth in X by auto. injection X as X. auto. }
    assert (Hi : i < ct_count c) by (subst i; rewrite <- (seq_length (ct_count c) 0), Eu, app_length; cbn; lia).
    rewrite app_length. cbn [length]. rewrite <- Hu in *. clear Hu Eu.
    destruct (nth_error ls i) as [b|] eqn:Ei; [|apply nth_error_None in Ei; lia].
    rewrite (getitem_nth _ _ _ Ei). cbn [bind]. destruct b.
    + assert (Hni : ~ inner c i) by (intros Hin; apply I in Hin; congruence).
      exists (ns, m). split; auto. cbn [fst snd]. split; [split; auto|].
      * intros h nd. rewrite N2. split; intros (j & Hj & Hin & R); exists j; (split; [|auto]); [lia|].
        assert (j <> i) by (intros ->; auto). lia.
      * intros j h. rewrite (M j h). split; intros [P [->|(p & side & Hp & R)]]; (split; [auto|]); auto; right; exists p, side; (split; [|auto]); [lia|].
        assert (p <> i) by (intros ->; destruct R; auto). lia.
    + assert (Hin : inner c i) by (apply I; auto). destruct (positioned_total c i C Hi) as (h & P).
      assert (Em : lookup Z.eqb m (Z.of_nat i) = Ok h).
      { apply lookup_ok. apply M. split; auto. destruct i as [|i]; auto. right.
        destruct (ck_parent c C (S i) ltac:(lia) Hi) as (p & side & R). exists p, side. split; auto. apply (ck_later c C _ _ _ R). }
      rewrite Em. cbn [bind]. destruct (cart_node_some c d i h C Hin) as (nd & End). rewrite End. cbn [bind].
      destruct (ck_child c C i true Hin) as (a & Ha). destruct (ck_child c C i false Hin) as (b & Hb).
      rewrite (getitem_nth _ _ _ (proj2 Ha)). cbn [bind]. rewrite (getitem_nth _ _ _ (proj2 Hb)). cbn [bind].
      eexists. split; [reflexivity|]. cbn [fst snd]. split; [split|].
      * apply (assoc_set_keys Nat.eqb Nat.eqb_eq). auto.
      * intros h' nd'. rewrite (assoc_assoc_set Nat.eqb Nat.eqb_eq). destruct (Nat.eqb_spec h h') as [<-|Hne].
        -- split.
           ++ intros Ex. injection Ex as <-. exists i. split; [lia|]. auto.
           ++ intros (j & Hj & Hjin & Pj & Hnd'). rewrite (positioned_inj _ _ _ Pj _ P) in Hnd'. congruence.
        -- rewrite N2. split; intros (j & Hj & Hjin & Pj & R); exists j; (split; [|auto]); [lia|].
           assert (j <> i) by (intros ->; apply Hne; eapply positioned_unique; eauto). lia.
      * intros j h'. rewrite !(assoc_assoc_set Z.eqb Z.eqb_eq).
        assert (Pa : positioned c a (2 * h + 1)) by (eapply at_left; eauto). assert (Pb : positioned c b (2 * h + 2)) by (eapply at_right; eauto).
        destruct (Z.eqb_spec (Z.of_nat b) (Z.of_nat j)) as [Ej|Ej].
        { assert (j = b) by lia. subst j. split.
          - intros Ex. injection Ex as <-. split; auto. right. exists i, false. split; [lia|auto].
          - intros [Pj _]. f_equal. eapply positioned_unique; eauto. }
        destruct (Z.eqb_spec (Z.of_nat a) (Z.of_nat j)) as [Ej'|Ej'].
        { assert (j = a) by lia. subst j. split.
          - intros Ex. injection Ex as <-. split; auto. right. exists i, true. split; [lia|auto].
          - intros [Pj _]. f_equal. eapply positioned_unique; eauto. }
        rewrite (M j h'). split; intros [Pj [->|(p & side & Hp & R)]]; (split; [auto|]); auto; right; exists p, side; (split; [|auto]); [lia|].
        assert (p <> i).
        { intros ->. destruct side; [apply Ej'|apply Ej]; f_equal; eapply cart_child_fun; eauto. }
        lia.
  - rewrite E. cbn [bind]. exists ns. rewrite seq_length in H2. cbn [fst snd] in *. split; [reflexivity|]. split; [exact H1|].
    intros h nd. rewrite H2. split.
    + intros (i & _ & H). eauto.
    + intros (i & Hi & H). exists i. split; [apply inner_lt; auto|auto].
Qed.

Lemma get_all_nodes_spec c d ls : cart_ok c -> good_registry d -> (forall i f t, cart_test c i f t -> has_key d f t) ->
  get_is_leaves (ct_count c) (ct_left c) (ct_right c) = Ok ls ->
  exists ns, get_all_nodes c (ct_count c) ls d = Ok ns /\ NoDup (map fst ns) /\
    forall h nd, assoc Nat.eqb ns h = Some nd <-> exists i, inner c i /\ positioned c i h /\ node_for c d i h nd.
Proof.
  intros C G Hk El. destruct (get_all_nodes_any c d ls C El) as (ns & E & N & A). exists ns. split; auto. split; auto. intros h nd. rewrite A.
  split; intros (i & Hi & P & H); exists i; (split; [auto|]); (split; [auto|]); destruct (cart_node_ok c d i h C G Hi (Hk i)) as (nd' & E' & H').
  - rewrite E' in H. injection H as <-. auto.
  - rewrite E'. f_equal. eapply node_for_fun; eauto.
Qed.

(** * Walking down *)
Lemma route_snoc k : forall left_at i, route (S k) left_at i = let j := route k left_at i in if left_at j then 2 * j + 1 else 2 * j + 2.
Proof.
  induction k as [|k IH]; intros left_at i; [reflexivity|].
  change (route (S (S k)) left_at i) with (route (S k) left_at (if left_at i then 2 * i + 1 else 2 * i + 2)). rewrite IH. reflexivity.
Qed.

Lemma descends_positioned c x k i : descends c x k i -> exists h, positioned c i h.
Proof.
  intros D. induction D as [|k i f t j D (h & P) T H]; [exists 0; constructor|].
  destruct (Qle_bool (nth f x 0%Q) t); [exists (2 * h + 1)|exists (2 * h + 2)]; econstructor; eauto.
Qed.

Lemma Qle_bool_same a t t' : (t == t')%Q -> Qle_bool a t = Qle_bool a t'.
Proof. intros H. apply eq_true_iff_eq. rewrite !Qle_bool_iff, H. tauto. Qed.

Lemma descends_route c d ns x k i : good_registry d ->
  (forall h nd, assoc Nat.eqb ns h = Some nd <-> exists i, inner c i /\ positioned c i h /\ node_for c d i h nd) ->
  (forall i f t, cart_test c i f t -> has_key d f t) -> cart_ok c ->
  descends c x k i -> positioned c i (route k (fun n => goes_left (map snd d) x (last_split ns n)) 0).
Proof.
  intros G A Hk C D. induction D as [|k i f t j D IH T H]; [constructor|].
  rewrite route_snoc. cbv zeta. set (h := route k _ 0) in *.
  assert (Hg : goes_left (map snd d) x (last_split ns h) = Qle_bool (nth f x 0%Q) t).
  { destruct (cart_node_ok c d i h C G (proj1 T) (Hk i)) as (nd & _ & Hnd).
    assert (Ea : assoc Nat.eqb ns h = Some nd) by (apply A; exists i; split; [apply T|]; auto).
    unfold last_split. rewrite Ea. destruct Hnd as (f2 & t2 & k2 & t' & s & (_ & U1 & U2) & Hk2 & Ht & ->). cbn [en_last].
    destruct T as (_ & T1 & T2). rewrite T1 in U1. rewrite T2 in U2. injection U1 as <-. injection U2 as <-.
    unfold goes_left. rewrite nth_error_map, Hk2. cbn [option_map snd]. rewrite (proj1 G _ _ _ _ Hk2).
    unfold sample_left, new_split. cbn [s_feature s_threshold]. apply Qle_bool_same. auto. }
  rewrite Hg. destruct (Qle_bool (nth f x 0%Q) t); econstructor; eauto.
Qed.

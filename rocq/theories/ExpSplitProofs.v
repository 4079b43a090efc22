(** The registry of splits of the experiment (proofs). *)
From Verif Require Import Base Lp TreeModel ExpModel SpecTree SpecExp TreePathProofs TreeLpBuild TreeBuildProofs TreeInvProofs.
Open Scope nat_scope.

Lemma skey_eqb_iff a b : skey_eqb a b = true <-> fst a = fst b /\ (snd a == snd b)%Q.
Proof. unfold skey_eqb. rewrite andb_true_iff, Nat.eqb_eq, Qeq_bool_iff. tauto. Qed.

Lemma assoc_some (d : registry) f t s : assoc skey_eqb d (f, t) = Some s -> exists t', In ((f, t'), s) d /\ (t' == t)%Q.
Proof.
  induction d as [|[[f' t'] s'] d IH]; simpl; [discriminate|].
  destruct (skey_eqb (f', t') (f, t)) eqn:E.
  - intros H. injection H as <-. apply skey_eqb_iff in E. cbn in E. destruct E as [-> E]. eauto.
  - intros H. destruct (IH H) as (t1 & H1 & H2). eauto.
Qed.
Lemma assoc_none (d : registry) f t : assoc skey_eqb d (f, t) = None <-> ~ has_key d f t.
Proof.
  split.
  - intros H (t' & s & Hin & Ht). induction d as [|[[f1 t1] s1] d IH]; simpl in *; [contradiction|].
    destruct (skey_eqb (f1, t1) (f, t)) eqn:E; [discriminate|]. destruct Hin as [E1|Hin]; auto.
    injection E1 as -> -> ->. assert (K : skey_eqb (f, t') (f, t) = true) by (apply skey_eqb_iff; auto). congruence.
  - intros H. destruct (assoc skey_eqb d (f, t)) eqn:E; auto. exfalso. apply H.
    destruct (assoc_some _ _ _ _ E) as (t' & H1 & H2). exists t', s. auto.
Qed.
Lemma assoc_has (d : registry) f t : has_key d f t -> exists s, assoc skey_eqb d (f, t) = Some s.
Proof. intros H. destruct (assoc skey_eqb d (f, t)) eqn:E; eauto. apply assoc_none in E. contradiction. Qed.

Lemma has_key_app d e f t : has_key (d ++ e) f t <-> has_key d f t \/ has_key e f t.
Proof.
  unfold has_key. split.
  - intros (t' & s & H & Ht). apply in_app_iff in H. destruct H; [left|right]; eauto.
  - intros [(t' & s & H & Ht)|(t' & s & H & Ht)]; exists t', s; rewrite in_app_iff; auto.
Qed.

Lemma good_nil : good_registry [].
Proof. split; intros; destruct k + destruct i; discriminate. Qed.

(** One registration. *)
Lemma register_spec key d : good_registry d ->
  good_registry (register key d) /\ (exists new, register key d = d ++ new) /\
  (forall f t, has_key (register key d) f t <-> has_key d f t \/ (fst key = f /\ (snd key == t)%Q)).
Proof.
  intros [G1 G2]. destruct key as [f0 t0]. unfold register. cbn [fst snd].
  destruct (assoc skey_eqb d (f0, t0)) as [s|] eqn:E.
  - split; [split; auto|]. split; [exists []; rewrite app_nil_r; auto|].
    intros f t. split; auto. intros [H|[<- H]]; auto. destruct (assoc_some _ _ _ _ E) as (t' & H1 & H2).
    exists t', s. split; auto. rewrite H2. auto.
  - apply assoc_none in E. split; [|split; [eauto|]].
    + assert (L : forall i f t s, nth_error (d ++ [((f0, t0), new_split (length d) f0 t0)]) i = Some ((f, t), s) ->
          nth_error d i = Some ((f, t), s) \/ i = length d /\ f = f0 /\ t = t0 /\ s = new_split (length d) f0 t0).
      { intros i f t s H. destruct (Nat.lt_ge_cases i (length d)) as [Hi|Hi].
        - rewrite nth_error_app1 in H by auto. auto.
        - rewrite nth_error_app2 in H by auto. right. destruct (i - length d) as [|[|k]] eqn:Ei; cbn in H; try discriminate.
          injection H as <- <- <-. split; [lia|]. auto. }
      split.
      * intros k f t s H. destruct (L _ _ _ _ H) as [H'|(-> & -> & -> & ->)]; auto.
      * intros i j f t t' s s' Hi Hj Ht.
        destruct (L _ _ _ _ Hi) as [Hi'|(-> & -> & -> & ->)]; destruct (L _ _ _ _ Hj) as [Hj'|(-> & Ef & -> & ->)].
        -- eapply G2; eauto.
        -- subst. exfalso. apply E. exists t, s. split; auto. eapply nth_error_In; eauto.
        -- exfalso. apply E. exists t', s'. split; [eapply nth_error_In; eauto|]. symmetry. auto.
        -- reflexivity.
    + intros f t. rewrite has_key_app. apply or_iff_compat_l. split.
      * intros (t' & s & [H|[]] & Ht). injection H as -> -> <-. auto.
      * intros [<- H]. exists t0, (new_split (length d) f0 t0). cbn. auto.
Qed.

Lemma merge_spec d2 : forall d1, good_registry d1 ->
  good_registry (merge_all_splits d1 d2) /\ (exists new, merge_all_splits d1 d2 = d1 ++ new) /\
  (forall f t, has_key (merge_all_splits d1 d2) f t <-> has_key d1 f t \/ has_key d2 f t).
Proof.
  induction d2 as [|[[f0 t0] s0] d2 IH]; intros d1 G; unfold merge_all_splits; cbn [fold_left fst].
  - split; auto. split; [exists []; rewrite app_nil_r; auto|]. intros f t. split; auto. intros [H|(t' & s & [] & _)]; auto.
  - destruct (register_spec (f0, t0) d1 G) as (G1 & (new & E) & K).
    destruct (IH _ G1) as (G2 & (new2 & E2) & K2). unfold merge_all_splits in *. split; auto. split.
    + exists (new ++ new2). rewrite E2, E, app_assoc. reflexivity.
    + intros f t. rewrite K2, K. cbn [fst snd]. change (((f0, t0), s0) :: d2) with ([((f0, t0), s0)] ++ d2). rewrite (has_key_app _ d2).
      assert (S : has_key [((f0, t0), s0)] f t <-> f0 = f /\ (t0 == t)%Q).
      { split.
        - intros (t' & s & [H|[]] & Ht). injection H as -> -> ->. auto.
        - intros [-> H]. exists t0, s0. cbn. auto. }
      tauto.
Qed.

(** * Leaves of a CART tree *)
Lemma is_leaves_ok c : cart_ok c ->
  exists ls, get_is_leaves (ct_count c) (ct_left c) (ct_right c) = Ok ls /\ length ls = ct_count c /\
    (forall i, nth_error ls i = Some false <-> inner c i) /\ (forall i b, nth_error ls i = Some b -> i < ct_count c).
Proof.
  intros C. unfold get_is_leaves.
  destruct (map_res_Forall2 (fun i => let* a := getitem (ct_left c) i in let* b := getitem (ct_right c) i in Ok (a =? b)%Z)
    (fun i b => exists a z, nth_error (ct_left c) i = Some a /\ nth_error (ct_right c) i = Some z /\ b = (a =? z)%Z) (seq 0 (ct_count c)))
    as (ls & E & F).
  { intros i Hi. apply in_seq in Hi. pose proof (ck_right c C) as Hr.
    destruct (nth_error (ct_left c) i) as [a|] eqn:Ea; [|apply nth_error_None in Ea; unfold ct_count in *; lia].
    destruct (nth_error (ct_right c) i) as [b|] eqn:Eb; [|apply nth_error_None in Eb; unfold ct_count in *; lia].
    exists (a =? b)%Z. rewrite (getitem_nth _ _ _ Ea). cbn [bind]. rewrite (getitem_nth _ _ _ Eb). cbn [bind]. eauto 6. }
  exists ls. split; [exact E|].
  assert (L : length ls = ct_count c) by (rewrite <- (Forall2_length' _ _ _ F), seq_length; auto). split; auto.
  assert (N : forall i b, nth_error ls i = Some b -> i < ct_count c) by (intros i b H; rewrite <- L; apply nth_error_Some; congruence).
  assert (W : forall i b, nth_error ls i = Some b -> exists a z, nth_error (ct_left c) i = Some a /\ nth_error (ct_right c) i = Some z /\ b = (a =? z)%Z).
  { intros i b H. pose proof (N _ _ H) as Hi. revert H. clear - F Hi.
    assert (G : forall k n ls, Forall2 (fun i b => exists a z, nth_error (ct_left c) i = Some a /\ nth_error (ct_right c) i = Some z /\ b = (a =? z)%Z) (seq k n) ls ->
      forall j b, nth_error ls j = Some b -> exists a z, nth_error (ct_left c) (k + j) = Some a /\ nth_error (ct_right c) (k + j) = Some z /\ b = (a =? z)%Z).
    { intros k n. revert k. induction n as [|n IH]; intros k l F' j b' H; inversion F'; subst; [destruct j; discriminate|].
      destruct j as [|j]; cbn in H.
      - injection H as <-. rewrite Nat.add_0_r. auto.
      - replace (k + S j) with (S k + j) by lia. eapply IH; eauto. }
    intros H. exact (G 0 _ _ F i b H). }
  split; auto. intros i. split.
  - intros H. destruct (W _ _ H) as (a & z & Ha & Hz & Eb). exists a, z. split; auto. split; auto. symmetry in Eb. apply Z.eqb_neq in Eb. auto.
  - intros (a & z & Ha & Hz & Hne). destruct (nth_error ls i) as [b|] eqn:Ei.
    + destruct (W _ _ Ei) as (a' & z' & Ha' & Hz' & ->). rewrite Ha in Ha'. rewrite Hz in Hz'. injection Ha' as <-. injection Hz' as <-.
      f_equal. apply Z.eqb_neq. auto.
    + apply nth_error_None in Ei. assert (i < ct_count c) by (unfold ct_count; apply nth_error_Some; congruence). lia.
Qed.

Lemma inner_lt c i : inner c i -> i < ct_count c.
Proof. intros (a & b & H & _). unfold ct_count. apply nth_error_Some. congruence. Qed.

Lemma inner_test c i : cart_ok c -> inner c i -> exists f t, cart_test c i f t.
Proof.
  intros C H. pose proof (inner_lt _ _ H) as Hi.
  destruct (nth_error (ct_feature c) i) as [f|] eqn:Ef; [|apply nth_error_None in Ef; pose proof (ck_feature c C); lia].
  destruct (nth_error (ct_threshold c) i) as [t|] eqn:Et; [|apply nth_error_None in Et; pose proof (ck_threshold c C); lia].
  exists f, t. split; auto.
Qed.

Lemma get_all_splits_spec c ls : cart_ok c -> get_is_leaves (ct_count c) (ct_left c) (ct_right c) = Ok ls ->
  exists d, get_all_splits (ct_count c) c ls = Ok d /\ good_registry d /\
    forall f t, has_key d f t <-> exists i t', cart_test c i f t' /\ (t' == t)%Q.
Proof.
  intros C El. destruct (is_leaves_ok c C) as (ls' & E' & L & I & N). rewrite El in E'. injection E' as <-.
  unfold get_all_splits.
  destruct (for_each_steps (seq 0 (ct_count c))
    (fun i d => let* leaf := getitem ls i in if (leaf : bool) then Ok d else let* f := getitem (ct_feature c) i in
                let* t := getitem (ct_threshold c) i in Ok (register (f, t) d))
    (fun u d => good_registry d /\ forall f t, has_key d f t <-> exists i t', In i u /\ cart_test c i f t' /\ (t' == t)%Q) []) as (d & E & G & K).
  - split; [apply good_nil|]. intros f t. split; [intros (t' & s & [] & _)|intros (i & t' & [] & _)].
  - intros u i v d Eu (G & K).
    assert (Hi : i < ct_count c) by (assert (In i (seq 0 (ct_count c))) by (rewrite Eu; apply in_or_app; right; left; auto); apply in_seq in H; lia).
    destruct (nth_error ls i) as [b|] eqn:Ei; [|apply nth_error_None in Ei; lia].
    rewrite (getitem_nth _ _ _ Ei). cbn [bind]. destruct b.
    + exists d. split; auto. split; auto. intros f t. rewrite K. split.
      * intros (j & t' & Hj & H). exists j, t'. rewrite in_app_iff. auto.
      * intros (j & t' & Hj & H). apply in_app_iff in Hj. destruct Hj as [Hj|[<-|[]]]; [eauto|].
        destruct H as [[Hin _] _]. apply I in Hin. congruence.
    + assert (Hin : inner c i) by (apply I; auto). destruct (inner_test c i C Hin) as (f0 & t0 & T).
      destruct T as (_ & Tf & Tt). rewrite (getitem_nth _ _ _ Tf). cbn [bind]. rewrite (getitem_nth _ _ _ Tt). cbn [bind].
      eexists. split; [reflexivity|]. destruct (register_spec (f0, t0) d G) as (G1 & _ & K1). split; auto.
      intros f t. rewrite K1, K. cbn [fst snd]. split.
      * intros [(j & t' & Hj & H)|[<- H]].
        -- exists j, t'. rewrite in_app_iff. auto.
        -- exists i, t0. rewrite in_app_iff. cbn. split; auto. split; auto. split; auto.
      * intros (j & t' & Hj & H & Ht). apply in_app_iff in Hj. destruct Hj as [Hj|[<-|[]]]; [left; eauto|]. right.
        destruct H as (_ & Hf & Ht'). rewrite Tf in Hf. rewrite Tt in Ht'. injection Hf as <-. injection Ht' as <-. auto.
  - exists d. split; [exact E|]. split; auto. intros f t. rewrite K. split.
    + intros (i & t' & _ & H). eauto.
    + intros (i & t' & H & Ht). exists i, t'. split; auto. apply in_seq. split; [lia|]. apply inner_lt. apply H.
Qed.

(** * Objects by id *)
Lemma by_id_loop {K A} (id : A -> nat) : forall v u (d : list (K * A)), d = u ++ v ->
  (forall i ka, nth_error d i = Some ka -> id (snd ka) = i) ->
  for_each v (fun kv l => let* _ := getitem l (id (snd kv)) in Ok (set_nth l (id (snd kv)) (Some (snd kv))))
    (map Some (map snd u) ++ repeat None (length v)) = Ok (map Some (map snd d)).
Proof.
  induction v as [|ka v IH]; intros u d E H; cbn [for_each].
  - cbn. rewrite app_nil_r in *. subst. reflexivity.
  - assert (Hi : id (snd ka) = length u) by (apply H; rewrite E, nth_error_app2, Nat.sub_diag by auto; reflexivity).
    rewrite Hi. cbn [length repeat].
    replace (getitem (map Some (map snd u) ++ None :: repeat None (length v)) (length u)) with (@Ok (option A) None)
      by (symmetry; apply getitem_ok; rewrite nth_error_app2; rewrite !map_length; auto; rewrite Nat.sub_diag; reflexivity).
    cbn [bind].
    replace (set_nth (map Some (map snd u) ++ None :: repeat None (length v)) (length u) (Some (snd ka)))
      with (map Some (map snd (u ++ [ka])) ++ repeat None (length v)).
    + apply IH; auto. rewrite <- app_assoc. exact E.
    + rewrite !map_app. cbn [map]. rewrite <- app_assoc. cbn [app]. clear. induction u as [|a u IH]; cbn; auto. rewrite IH. reflexivity.
Qed.

Lemma by_id_ok {K A} (id : A -> nat) (d : list (K * A)) : (forall i ka, nth_error d i = Some ka -> id (snd ka) = i) ->
  by_id id d = Ok (map snd d).
Proof.
  intros H. unfold by_id. pose proof (by_id_loop id d [] d eq_refl H) as E. cbn [map app] in E. rewrite E. cbn [bind].
  clear. induction (map snd d) as [|a l IH]; cbn; auto. rewrite IH. reflexivity.
Qed.

Lemma splits_list_ok d : good_registry d -> get_splits_list d = Ok (map snd d).
Proof.
  intros [G _]. apply by_id_ok. intros i [[f t] s] H. rewrite (G _ _ _ _ H). reflexivity.
Qed.

(** preprocess_rows of the master problem with its quadratic loop. *)
From Verif Require Import Base Lp LpProofs TreeModel SpecTree TreeGeoProofs TreePathProofs TreeLpBuild TreeFormProofs TreeBuildProofs TreeInvProofs SpecTreeRun
  SpecTreeLp TreeLpProofs TreeReachProofs ExpModel SpecExp ExpRowProofs ExpQuadProofs.
Open Scope nat_scope.

Section Loop.
Variables (ns : list node) (rows0 : list row) (mb : nat -> nat -> bool).
Let n := length rows0.
Hypothesis Hmb : forall i j a b, nth_error rows0 i = Some a -> nth_error rows0 j = Some b -> rows_match ns a b = Ok (mb i j).

Definition marked (b0 b : row) : Prop := b = b0 \/ b = gone b0.
Lemma marked_st b0 b : marked b0 b -> st b0 b.
Proof. intros [-> | ->]; [apply st_refl|apply st_gone]. Qed.
Lemma gone_gone b : r_gone b = true -> gone b = b.
Proof. destruct b; cbn. intros ->. reflexivity. Qed.

(** After the first [i] rounds. *)
Definition looped (i : nat) (rows : list row) : Prop :=
  length rows = n /\ forall r b0 b, nth_error rows0 r = Some b0 -> nth_error rows r = Some b -> marked b0 b /\
    (r_gone b = true <-> r_gone b0 = true \/ exists r' b', r' < r /\ r' < i /\ nth_error rows r' = Some b' /\ r_gone b' = false /\ mb r' r = true).

Lemma inner_round i a0 a : nth_error rows0 i = Some a0 -> marked a0 a -> forall k j rows, j + k = n ->
  length rows = n -> (forall r b0 b, nth_error rows0 r = Some b0 -> nth_error rows r = Some b -> marked b0 b) ->
  exists rows', for_each (seq j k) (fun j rows => let* b := getitem rows j in if r_gone b then Ok rows
      else let* m := rows_match ns a b in Ok (if (m : bool) then set_nth rows j (gone b) else rows)) rows = Ok rows' /\
    length rows' = n /\ (forall r, r < j -> nth_error rows' r = nth_error rows r) /\
    forall r b, j <= r -> nth_error rows r = Some b -> nth_error rows' r = Some (if mb i r then gone b else b).
Proof.
  intros Ea Ma. induction k as [|k IH]; intros j rows Hj L M; cbn [seq for_each].
  - exists rows. split; auto. split; auto. split; auto. intros r b Hr Eb. assert (r < n) by (rewrite <- L; apply nth_error_Some; congruence). lia.
  - destruct (nth_error_some_lt rows j) as [b Eb]; [lia|]. destruct (nth_error_some_lt rows0 j) as [b0 Eb0]; [unfold n in *; lia|].
    rewrite (getitem_nth _ _ _ Eb). cbn [bind]. pose proof (M _ _ _ Eb0 Eb) as Mb.
    assert (F : exists rows1, (if r_gone b then Ok rows else let* m := rows_match ns a b in Ok (if (m : bool) then set_nth rows j (gone b) else rows)) = Ok rows1 /\
      length rows1 = n /\ nth_error rows1 j = Some (if mb i j then gone b else b) /\ forall r, r <> j -> nth_error rows1 r = nth_error rows r).
    { destruct (r_gone b) eqn:G.
      - exists rows. split; auto. split; auto. split; auto. rewrite (gone_gone _ G). destruct (mb i j); auto.
      - rewrite (rows_match_st ns a0 b0 a b), (Hmb i j a0 b0) by auto using marked_st. cbn [bind]. eexists. split; [reflexivity|]. destruct (mb i j).
        + rewrite length_set_nth. split; auto. split; [apply nth_error_set_nth_same; lia|]. intros r Hr. apply nth_error_set_nth_other. auto.
        + auto. }
    destruct F as (rows1 & -> & L1 & F1 & F2). cbn [bind]. destruct (IH (S j) rows1) as (rows' & E & L' & H1 & H2); [lia|auto| |].
    { intros r c0 c Ec0 Ec. destruct (Nat.eq_dec r j) as [->|Hr]; [|rewrite F2 in Ec by auto; eauto].
      rewrite F1 in Ec. injection Ec as <-. assert (c0 = b0) by congruence. subst c0. destruct (mb i j); auto. right. destruct Mb as [-> | ->]; auto. }
    exists rows'. split; [exact E|]. split; auto. split.
    + intros r Hr. rewrite H1 by lia. apply F2. lia.
    + intros r c Hr Ec. destruct (Nat.eq_dec r j) as [->|Hne].
      * rewrite H1 by lia. rewrite F1. assert (c = b) by congruence. subst c. reflexivity.
      * apply H2; [lia|]. rewrite F2 by auto. exact Ec.
Qed.

Lemma rounds : forall k i rows, i + k = n -> looped i rows -> exists rows',
  for_each (seq i k) (fun i rows => let* a := getitem rows i in if r_gone a then Ok rows
     else for_each (seq (i + 1) (length rows - (i + 1))) (fun j rows => let* b := getitem rows j in if r_gone b then Ok rows
            else let* m := rows_match ns a b in Ok (if (m : bool) then set_nth rows j (gone b) else rows)) rows) rows = Ok rows' /\ looped n rows'.
Proof.
  induction k as [|k IH]; intros i rows Hi (L & H); cbn [seq for_each].
  - exists rows. split; auto. replace n with i by lia. split; auto.
  - destruct (nth_error_some_lt rows i) as [a Ea]; [lia|]. destruct (nth_error_some_lt rows0 i) as [a0 Ea0]; [unfold n in *; lia|].
    rewrite (getitem_nth _ _ _ Ea). cbn [bind]. destruct (H _ _ _ Ea0 Ea) as (Ma & _). destruct (r_gone a) eqn:G; cbn [bind].
    + apply IH; [lia|]. split; auto. intros r b0 b Eb0 Eb. destruct (H _ _ _ Eb0 Eb) as (Mb & Hg). split; auto. rewrite Hg. split.
      * intros [?|(r' & b' & ? & ? & ?)]; auto. right. exists r', b'. split; auto.
      * intros [?|(r' & b' & ? & ? & Eb' & Gb' & ?)]; auto. right. exists r', b'. split; auto. split; [|auto].
        assert (r' <> i) by (intros ->; congruence). lia.
    + destruct (inner_round i a0 a Ea0 Ma (length rows - (i + 1)) (i + 1) rows) as (rows1 & E & L1 & H1 & H2); [lia|auto|intros r b0 b E1 E2; apply (H r b0 b E1 E2)|].
      rewrite E. cbn [bind]. apply IH; [lia|]. split; auto. intros r b0 b Eb0 Eb. destruct (Nat.lt_ge_cases r (i + 1)) as [Hr|Hr].
      * rewrite H1 in Eb by lia. destruct (H _ _ _ Eb0 Eb) as (Mb & Hg). split; auto. rewrite Hg.
        split; (intros [?|(r' & b' & ? & ? & Eb' & ?)]; auto; right; exists r', b'; split; auto; split; [lia|]); split; auto; [rewrite H1 by lia|rewrite H1 in Eb' by lia]; auto.
      * destruct (nth_error_some_lt rows r) as [c Ec]; [rewrite L, <- L1; apply nth_error_Some; congruence|]. destruct (H _ _ _ Eb0 Ec) as (Mc & Hg).
        rewrite (H2 r c) in Eb by auto. injection Eb as <-. split; [destruct (mb i r); auto; right; destruct Mc as [-> | ->]; auto|].
        destruct (mb i r) eqn:Em.
        -- cbn [gone r_gone]. split; auto. intros _. right. exists i, a. split; [lia|]. split; [lia|]. split; [rewrite H1 by lia; exact Ea|]. auto.
        -- rewrite Hg. split; (intros [?|(r' & b' & Hr' & Hi' & Eb' & Gb' & Em')]; [left; assumption|right; exists r', b'; split; [exact Hr'|]]).
           ++ split; [lia|]. split; [rewrite H1 by lia; auto|auto].
           ++ assert (r' <> i) by (intros ->; congruence). split; [lia|]. split; [rewrite H1 in Eb' by lia; auto|auto].
Qed.

Lemma aggressive_loop_ok : exists rows, aggressive_loop ns rows0 = Ok rows /\ looped n rows.
Proof.
  unfold aggressive_loop. apply rounds; [reflexivity|]. split; auto. intros r b0 b E1 E2. assert (b = b0) by congruence. subst b. split; [left; auto|].
  split; auto. intros [?|(r' & b' & _ & ? & _)]; [auto|lia].
Qed.
End Loop.

(** * Rows that follow the same paths are alike *)

Section Converse.
Variables (d : nat) (nodes : list node) (splits : list split).
Hypothesis Hd : 1 <= d.
Hypothesis Hnodes : complete_nodes d nodes.
Hypothesis Hsplits : forall n, In n nodes -> Forall (fun k => k < length splits) (n_cands n).
Hypothesis Hcands : forall n, In n nodes -> n_cands n <> [].

Lemma some_cand n : n < 2 ^ d - 1 -> exists nd k, nth_error nodes n = Some nd /\ In k (n_cands nd).
Proof.
  intros Hn. destruct (nth_error_some_lt nodes n) as [nd E]; [destruct Hnodes as [-> _]; auto|]. exists nd.
  pose proof (Hcands nd (nth_error_In _ _ E)). destruct (n_cands nd) as [|k l]; [congruence|]. exists k. split; auto. left. auto.
Qed.
Lemma extend L j : forall u, d = length u + j -> rch nodes L u -> exists v, length (u ++ v) = d /\ rch nodes L (u ++ v).
Proof.
  induction j as [|j IH]; intros u Hj Hu.
  - exists []. rewrite app_nil_r. split; auto. lia.
  - destruct (some_cand (pos 0 u)) as (nd & k & Hn & Hk); [apply pos_lt_inner; lia|].
    destruct (IH (u ++ [L k])) as (v & H1 & H2).
    + rewrite app_length. simpl. lia.
    + eapply rch_snoc; eauto.
    + exists (L k :: v). rewrite <- app_assoc in H1, H2. auto.
Qed.

(** A path of candidates that the row follows through node [n] with split [k]. *)
Lemma path_through a n nd k : reached nodes a n -> nth_error nodes n = Some nd -> In k (n_cands nd) ->
  exists p, tree_path d splits p /\ uses_candidates nodes p /\ follows (create_leaf (p_leaf p) d) (fun k => memb k a) p /\ In (n, k) (choices p) /\
    forall L, follows (create_leaf (p_leaf p) d) L p -> forall bits, n = pos 0 bits -> rch nodes L bits.
Proof.
  intros Hr Hn Hk. assert (Hlt : n < 2 ^ d - 1) by (destruct Hnodes as [<- _]; apply nth_error_Some; congruence).
  destruct (node_bits d n Hlt) as (u & Hu & <-). set (La := fun k => memb k a). apply (reached_rch d nodes Hd) in Hr.
  assert (Hs : rch nodes La (u ++ [La k])) by (eapply rch_snoc; eauto).
  destruct (extend La (d - length u - 1) (u ++ [La k])) as (v & Hl & Hv); [rewrite app_length; cbn; lia|auto|].
  set (bits := (u ++ [La k]) ++ v) in *.
  assert (Hin : In (pos 0 u, La k) (trail 0 bits)).
  { apply trail_split. exists u, v. split; auto. unfold bits. rewrite <- app_assoc. reflexivity. }
  assert (F : exists ks, Forall2 (fun nb k' => (exists nd', nth_error nodes (fst nb) = Some nd' /\ In k' (n_cands nd')) /\ La k' = snd nb /\ (fst nb = pos 0 u -> k' = k))
      (trail 0 bits) ks).
  { assert (G : forall nb, In nb (trail 0 bits) -> exists k', (exists nd', nth_error nodes (fst nb) = Some nd' /\ In k' (n_cands nd')) /\ La k' = snd nb /\ (fst nb = pos 0 u -> k' = k)).
    { intros [m b] Hm. cbn [fst snd]. destruct (Nat.eq_dec m (pos 0 u)) as [->|Hne].
      - exists k. split; [eauto|]. split; auto. eapply trail_functional; eauto.
      - destruct (Hv m b Hm) as (nd' & k' & E' & Hk' & Lk). exists k'. split; [eauto|]. split; [auto|congruence]. }
    clear - G. induction (trail 0 bits) as [|nb l IH]; [exists []; constructor|]. destruct (G nb) as [k' Hk']; [left; auto|].
    destruct IH as [ks Hks]; [intros; apply G; right; auto|]. exists (k' :: ks). constructor; auto. }
  destruct F as [ks F]. set (p := mkPath (num bits) (map fst (trail 0 bits)) ks 0 0 0 false).
  assert (Ch : forall m k', In (m, k') (choices p) -> exists b, In (m, b) (trail 0 bits) /\ (exists nd', nth_error nodes m = Some nd' /\ In k' (n_cands nd')) /\ La k' = b).
  { unfold choices, p. cbn [p_nodes p_splits]. clear - F. induction F as [|[m b] k' l ks H F IH]; cbn [map combine In]; [tauto|].
    intros m' k'' [E|Hin]; [injection E as <- <-; exists b; split; [left; auto|]; destruct H as (H1 & H2 & _); auto|].
    destruct (IH m' k'' Hin) as (b' & ? & ?). exists b'. split; [right|]; auto. }
  assert (Ck : In (pos 0 u, k) (choices p)).
  { unfold choices, p. cbn [p_nodes p_splits]. clear - F Hin. induction F as [|[m b] k' l ks H F IH]; [destruct Hin|]. cbn [map combine In fst].
    destruct Hin as [E|Hin]; [|right; auto]. injection E as -> ->. left. destruct H as (_ & _ & H). rewrite H; auto. }
  assert (Call : forall m b, In (m, b) (trail 0 bits) -> exists k', In (m, k') (choices p)).
  { intros m b Hm. destruct (combine_In_fst (p_nodes p) (p_splits p) m) as [k' Hk']; [|apply (in_map fst) in Hm; exact Hm|exists k'; exact Hk'].
    cbn [p p_nodes p_splits]. rewrite map_length. eapply Forall2_length'; eauto. }
  assert (Tp : tree_path d splits p).
  { split; [cbn; rewrite <- Hl; apply num_lt|]. cbn [p p_leaf p_nodes p_splits]. split; [rewrite (create_leaf_bits d bits Hl); apply Permutation_sym, sides_perm|].
    split; [rewrite <- (Forall2_length' _ _ _ F), trail_length; auto|]. apply Forall_forall. intros k' Hk'. apply In_nth_error in Hk'. destruct Hk' as [i Ei].
    destruct (Forall2_nth_r _ _ _ _ _ F Ei) as (nb & _ & (nd' & E' & Hin') & _). pose proof (Hsplits nd' (nth_error_In _ _ E')) as Q. rewrite Forall_forall in Q. auto. }
  exists p. split; auto. split; [intros m k' Hc; destruct (Ch m k' Hc) as (b & _ & H & _); exact H|].
  split; [|split; [exact Ck|]].
  - apply (follows_bits d splits p Tp _ bits Hl eq_refl). intros m k' Hc. destruct (Ch m k' Hc) as (b & Hb & _ & Lb). fold (La k'). rewrite Lb. exact Hb.
  - intros L HL u' Eu. apply pos_inj in Eu. subst u'. pose proof (proj1 (follows_bits d splits p Tp L bits Hl eq_refl) HL) as HB.
    intros m b Hm. assert (Hm' : In (m, b) (trail 0 bits)) by (unfold bits; rewrite !trail_app; apply in_app_iff; left; apply in_app_iff; left; auto).
    destruct (Call m b Hm') as [k' Hc]. destruct (Ch m k' Hc) as (_ & _ & (nd' & E' & Hk') & _). exists nd', k'. split; auto. split; auto.
    exact (trail_functional _ _ _ _ (HB m k' Hc) Hm').
Qed.

Lemma same_way_alike X i j xi xj a b : nth_error X i = Some xi -> nth_error X j = Some xj ->
  (forall k, memb k a = goes_left splits xi k) -> (forall k, memb k b = goes_left splits xj k) -> same_way d X nodes splits i j -> alike d nodes a b.
Proof.
  intros Ei Ej Ha Hb S.
  assert (K : forall i x a p, nth_error X i = Some x -> (forall k, memb k a = goes_left splits x k) -> tree_path d splits p ->
    (covers X (complete_leaves d) splits (KRow i) p <-> follows (create_leaf (p_leaf p) d) (fun k => memb k a) p)).
  { clear. intros i x a p Ex Hl Hp. cbn [covers]. assert (Hlf : p_leaf p < 2 ^ d) by apply Hp. rewrite (complete_leaves_nth _ _ Hlf), Ex.
    assert (Eq : follows (create_leaf (p_leaf p) d) (fun k => memb k a) p <-> follows (create_leaf (p_leaf p) d) (goes_left splits x) p).
    { unfold follows. split; intros H m k Hin; [rewrite <- Hl|rewrite Hl]; auto. }
    rewrite Eq. split; [intros (x' & lf & E1 & E2 & Hf); injection E1 as <-; injection E2 as <-; auto|eauto 6]. }
  assert (H : forall i j xi xj a b, nth_error X i = Some xi -> nth_error X j = Some xj ->
    (forall k, memb k a = goes_left splits xi k) -> (forall k, memb k b = goes_left splits xj k) -> same_way d X nodes splits i j ->
    forall n nd k, reached nodes a n -> nth_error nodes n = Some nd -> In k (n_cands nd) -> reached nodes b n /\ memb k a = memb k b).
  { clear - K Hd Hnodes Hsplits Hcands. intros i j xi xj a b Ei Ej Ha Hb S n nd k Hr Hn Hk. destruct (path_through a n nd k Hr Hn Hk) as (p & Tp & Up & Fa & Ck & R).
    assert (Fb : follows (create_leaf (p_leaf p) d) (fun k => memb k b) p) by (apply (K j xj b p); auto; apply S; auto; apply (K i xi a p); auto).
    split.
    - destruct (every_pos n) as [u Eu]. rewrite <- Eu. apply (reached_rch d nodes Hd). apply (R (fun k => memb k b)); auto.
    - pose proof (Fa n k Ck) as A. pose proof (Fb n k Ck) as B. cbv beta in A, B. apply eq_true_iff_eq. tauto. }
  assert (S' : same_way d X nodes splits j i) by (intros p Tp Up; symmetry; apply S; auto).
  split.
  - intros n Hn. destruct (some_cand n Hn) as (nd & k & E & Hk). split; intros Hr.
    + apply (H i j xi xj a b Ei Ej Ha Hb S n nd k Hr E Hk).
    + apply (H j i xj xi b a Ej Ei Hb Ha S' n nd k Hr E Hk).
  - intros n nd k Hr E Hk. apply (H i j xi xj a b Ei Ej Ha Hb S n nd k Hr E Hk).
Qed.
End Converse.

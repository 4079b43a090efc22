(** Facts about the complete binary tree in heap numbering.  A position is described by the list of turns from the root
    ([true] = left). *)
From Verif Require Import Base Lp TreeModel SpecTree.
Open Scope nat_scope.

Definition child (i : nat) (b : bool) : nat := if b then 2 * i + 1 else 2 * i + 2.
Definition pos (i : nat) (bits : list bool) : nat := fold_left child bits i.
(** The nodes visited with the turn taken at each. *)
Fixpoint trail (i : nat) (bits : list bool) : list (nat * bool) :=
  match bits with [] => [] | b :: bs => (i, b) :: trail (child i b) bs end.
Fixpoint num (bits : list bool) : nat :=
  match bits with [] => 0 | b :: bs => (if b then 0 else 2 ^ length bs) + num bs end.

Lemma pow2_pos d : 0 < 2 ^ d.
Proof. induction d; simpl; lia. Qed.

Lemma pos_app i a b : pos i (a ++ b) = pos (pos i a) b.
Proof. apply fold_left_app. Qed.

Lemma pos_snoc i a b : pos i (a ++ [b]) = child (pos i a) b.
Proof. rewrite pos_app. reflexivity. Qed.

Lemma num_lt bits : num bits < 2 ^ length bits.
Proof. induction bits as [|[] bs IH]; simpl; lia. Qed.

Lemma pos_num bits : forall i, pos i bits + 1 = (i + 1) * 2 ^ length bits + num bits.
Proof.
  induction bits as [|b bs IH]; intros i.
  - simpl. lia.
  - change (pos i (b :: bs)) with (pos (child i b) bs). rewrite IH.
    simpl length. simpl num. simpl Nat.pow. destruct b; unfold child; nia.
Qed.

Lemma num_inj a : forall b, length a = length b -> num a = num b -> a = b.
Proof.
  induction a as [|x a IH]; intros [|y b] Hl Hn; simpl in *; try discriminate; auto.
  injection Hl as Hl. pose proof (num_lt a). pose proof (num_lt b). rewrite Hl in *.
  assert (x = y) by (destruct x, y; auto; exfalso; lia). subst y.
  f_equal. apply IH; [lia|]. lia.
Qed.

Lemma pow_between a b c : 2 ^ a <= c < 2 ^ (S a) -> 2 ^ b <= c < 2 ^ (S b) -> a = b.
Proof.
  intros Ha Hb. destruct (Nat.lt_trichotomy a b) as [H|[H|H]]; auto; exfalso.
  - assert (2 ^ S a <= 2 ^ b) by (apply Nat.pow_le_mono_r; lia). lia.
  - assert (2 ^ S b <= 2 ^ a) by (apply Nat.pow_le_mono_r; lia). lia.
Qed.

Lemma pos_bounds bits : 2 ^ length bits <= pos 0 bits + 1 < 2 ^ S (length bits).
Proof. rewrite pos_num. pose proof (num_lt bits). simpl. lia. Qed.

Lemma pos_inj a b : pos 0 a = pos 0 b -> a = b.
Proof.
  intros H. pose proof (pos_bounds a) as Ha. pose proof (pos_bounds b) as Hb.
  rewrite H in Ha. assert (Hl : length a = length b) by (eapply pow_between; eauto).
  apply num_inj; auto. pose proof (pos_num a 0) as Na. pose proof (pos_num b 0) as Nb. rewrite Hl in Na. lia.
Qed.

(** Every position has its list of turns. *)
Lemma num_surj d : forall k, k < 2 ^ d -> exists bits, length bits = d /\ num bits = k.
Proof.
  induction d as [|d IH]; intros k Hk.
  - exists []. simpl in *. split; auto. lia.
  - simpl in Hk. destruct (Nat.ltb_spec k (2 ^ d)).
    + destruct (IH k H) as [bs [Hl Hn]]. exists (true :: bs). simpl. split; lia.
    + destruct (IH (k - 2 ^ d)) as [bs [Hl Hn]]; [lia|]. exists (false :: bs). simpl. rewrite Hl. split; lia.
Qed.

Lemma pos_leaf d bits : length bits = d -> pos 0 bits = leaf_pos d (num bits).
Proof. intros <-. unfold leaf_pos. pose proof (pos_num bits 0). pose proof (pow2_pos (length bits)). lia. Qed.

Lemma leaf_bits d l : l < 2 ^ d -> exists bits, length bits = d /\ num bits = l /\ pos 0 bits = leaf_pos d l.
Proof.
  intros H. destruct (num_surj d l H) as [bits [Hl Hn]]. exists bits. repeat split; auto.
  rewrite <- Hn. apply pos_leaf; auto.
Qed.

Lemma every_pos n : exists bits, pos 0 bits = n.
Proof.
  set (d := Nat.log2 (n + 1)).
  assert (H : 2 ^ d <= n + 1 < 2 ^ S d) by (apply Nat.log2_spec; lia).
  destruct (num_surj d (n + 1 - 2 ^ d)) as [bits [Hl Hn]].
  - simpl in H. lia.
  - exists bits. pose proof (pos_num bits 0) as P. rewrite Hl, Hn in P. lia.
Qed.

Lemma node_bits d n : n < 2 ^ d - 1 -> exists bits, length bits < d /\ pos 0 bits = n.
Proof.
  intros H. destruct (every_pos n) as [bits Hb]. exists bits. split; auto.
  pose proof (pos_bounds bits) as B. rewrite Hb in B.
  destruct (Nat.lt_ge_cases (length bits) d); auto. exfalso.
  assert (2 ^ d <= 2 ^ length bits) by (apply Nat.pow_le_mono_r; lia). lia.
Qed.

Lemma pos_lt_inner d bits : length bits < d -> pos 0 bits < 2 ^ d - 1.
Proof.
  intros H. pose proof (pos_bounds bits) as B.
  assert (2 ^ S (length bits) <= 2 ^ d) by (apply Nat.pow_le_mono_r; lia). lia.
Qed.

(** * Subtrees *)

Lemma below_pos a b : below a b <-> exists bits, b = pos a bits.
Proof.
  split.
  - induction 1 as [a|a b _ [bs ->]|a b _ [bs ->]].
    + exists []. reflexivity.
    + exists (true :: bs). reflexivity.
    + exists (false :: bs). reflexivity.
  - intros [bs ->]. revert a. induction bs as [|c bs IH]; intros a.
    + apply below_self.
    + specialize (IH (child a c)). destruct c; [apply below_left|apply below_right]; exact IH.
Qed.

Lemma trail_split bits : forall i n b,
  In (n, b) (trail i bits) <-> exists u v, bits = u ++ b :: v /\ n = pos i u.
Proof.
  induction bits as [|c bs IH]; intros i n b; simpl.
  - split; [tauto|]. intros (u & v & E & _). destruct u; discriminate.
  - split.
    + intros [E|H].
      * injection E as <- <-. exists [], bs. auto.
      * apply IH in H. destruct H as (u & v & -> & ->). exists (c :: u), v. auto.
    + intros (u & v & E & Hn). destruct u as [|d u]; injection E as -> E.
      * left. subst n. reflexivity.
      * right. apply IH. exists u, v. auto.
Qed.

Lemma below_child_trail bits n b :
  below (child n b) (pos 0 bits) <-> In (n, b) (trail 0 bits).
Proof.
  rewrite below_pos, trail_split. split.
  - intros [w E]. destruct (every_pos n) as [u Hu].
    assert (pos 0 bits = pos 0 (u ++ b :: w)).
    { rewrite E. rewrite pos_app, Hu. reflexivity. }
    apply pos_inj in H. exists u, w. auto.
  - intros (u & v & -> & ->). exists v. rewrite pos_app. reflexivity.
Qed.

Lemma below_trail bits n :
  below n (pos 0 bits) /\ n <> pos 0 bits <-> exists b, In (n, b) (trail 0 bits).
Proof.
  split.
  - intros [H Hne]. apply below_pos in H. destruct H as [w E].
    destruct w as [|b w]; [simpl in E; congruence|].
    exists b. apply below_child_trail. apply below_pos. exists w. exact E.
  - intros [b H]. apply trail_split in H. destruct H as (u & v & -> & ->). split.
    + apply below_pos. exists (b :: v). apply pos_app.
    + intros E. apply pos_inj in E. apply (f_equal (@length bool)) in E. rewrite app_length in E. simpl in E. lia.
Qed.

Lemma trail_app a : forall i b, trail i (a ++ b) = trail i a ++ trail (pos i a) b.
Proof. induction a as [|x a IH]; intros i b; simpl; auto. rewrite IH. reflexivity. Qed.

Lemma trail_length bits : forall i, length (trail i bits) = length bits.
Proof. induction bits; intros i; simpl; auto. Qed.

Lemma trail_nodes_NoDup bits : NoDup (map fst (trail 0 bits)).
Proof.
  induction bits as [|b bs IH] using rev_ind; [constructor|].
  rewrite trail_app, map_app. simpl. apply NoDup_snoc; auto.
  rewrite in_map_iff. intros [[n c] [E H]]. simpl in E. apply trail_split in H.
  destruct H as (u & v & -> & Hn). rewrite Hn in E. apply pos_inj in E.
  apply (f_equal (@length bool)) in E. rewrite app_length in E. simpl in E. lia.
Qed.

(** * The loops that climb from a leaf to the root *)

Lemma child_pos i b : 0 < child i b.
Proof. destruct b; unfold child; lia. Qed.
Lemma child_father i b : (child i b - 1) / 2 = i.
Proof.
  destruct b; unfold child.
  - replace (2 * i + 1 - 1) with (i * 2) by lia. apply Nat.div_mul. lia.
  - replace (2 * i + 2 - 1) with (1 + i * 2) by lia. rewrite Nat.div_add by lia. reflexivity.
Qed.
Lemma child_even i b : (child i b mod 2 =? 0) = negb b.
Proof.
  destruct b; unfold child.
  - replace (2 * i + 1) with (1 + i * 2) by lia. rewrite Nat.mod_add by lia. reflexivity.
  - replace (2 * i + 2) with (0 + (i + 1) * 2) by lia. rewrite Nat.mod_add by lia. reflexivity.
Qed.
Lemma child_le i b : i < child i b.
Proof. destruct b; unfold child; lia. Qed.

Lemma set_leaf_loop_spec bits : forall fuel ids, pos 0 bits <= fuel ->
  set_leaf_loop fuel (pos 0 bits) ids = ids ++ rev (map fst (trail 0 bits)).
Proof.
  induction bits as [|b bs IH] using rev_ind; intros fuel ids Hf.
  - simpl. rewrite app_nil_r. destruct fuel; reflexivity.
  - rewrite pos_snoc in *. pose proof (child_pos (pos 0 bs) b). pose proof (child_le (pos 0 bs) b).
    destruct fuel as [|fuel]; [lia|]. cbn [set_leaf_loop].
    assert (E : (0 <? child (pos 0 bs) b) = true) by (apply Nat.ltb_lt; lia). rewrite E.
    rewrite child_father, IH by lia. rewrite trail_app, map_app, rev_app_distr. simpl. rewrite <- app_assoc. reflexivity.
Qed.

Definition lefts (bits : list bool) : list nat := map fst (filter snd (rev (trail 0 bits))).
Definition rights (bits : list bool) : list nat := map fst (filter (fun nb => negb (snd nb)) (rev (trail 0 bits))).

Lemma create_leaf_loop_spec bits : forall fuel ls rs, pos 0 bits <= fuel ->
  create_leaf_loop fuel (pos 0 bits) ls rs = (ls ++ lefts bits, rs ++ rights bits).
Proof.
  unfold lefts, rights.
  induction bits as [|b bs IH] using rev_ind; intros fuel ls rs Hf.
  - simpl. rewrite !app_nil_r. destruct fuel; reflexivity.
  - rewrite pos_snoc in *. pose proof (child_pos (pos 0 bs) b). pose proof (child_le (pos 0 bs) b).
    destruct fuel as [|fuel]; [lia|]. cbn [create_leaf_loop].
    assert (E : (0 <? child (pos 0 bs) b) = true) by (apply Nat.ltb_lt; lia). rewrite E.
    rewrite child_father, child_even.
    rewrite trail_app, rev_app_distr. destruct b; simpl; rewrite IH by lia; rewrite <- app_assoc; reflexivity.
Qed.

Lemma create_leaf_bits d bits : length bits = d ->
  create_leaf (num bits) d = mkLeaf (num bits) (lefts bits) (rights bits).
Proof.
  intros H. unfold create_leaf. pose proof (pos_leaf d bits H) as P. unfold leaf_pos in P.
  rewrite <- P, create_leaf_loop_spec by lia. reflexivity.
Qed.

Lemma lefts_In bits n : In n (lefts bits) <-> In (n, true) (trail 0 bits).
Proof.
  unfold lefts. rewrite in_map_iff. split.
  - intros [[m b] [E H]]. simpl in E. subst m. apply filter_In in H. destruct H as [H Hb]. simpl in Hb. subst b.
    apply in_rev. exact H.
  - intros H. exists (n, true). split; auto. apply filter_In. split; auto. apply in_rev in H. exact H.
Qed.
Lemma rights_In bits n : In n (rights bits) <-> In (n, false) (trail 0 bits).
Proof.
  unfold rights. rewrite in_map_iff. split.
  - intros [[m b] [E H]]. simpl in E. subst m. apply filter_In in H. destruct H as [H Hb]. simpl in Hb.
    destruct b; [discriminate|]. apply in_rev. exact H.
  - intros H. exists (n, false). split; auto. apply filter_In. split; auto. apply in_rev in H. exact H.
Qed.

Lemma filter_partition_perm {A} (f : A -> bool) l : Permutation (filter f l ++ filter (fun a => negb (f a)) l) l.
Proof.
  induction l as [|a l IH]; simpl; auto. destruct (f a); simpl.
  - constructor. exact IH.
  - rewrite <- Permutation_middle. constructor. exact IH.
Qed.

Lemma sides_perm bits : Permutation (lefts bits ++ rights bits) (map fst (trail 0 bits)).
Proof.
  unfold lefts, rights. rewrite <- map_app. apply Permutation_map.
  rewrite filter_partition_perm. apply Permutation_sym, Permutation_rev.
Qed.

Lemma sides_NoDup bits : NoDup (lefts bits ++ rights bits).
Proof. eapply Permutation_NoDup; [apply Permutation_sym, sides_perm|apply trail_nodes_NoDup]. Qed.

Lemma sides_length bits : length (lefts bits ++ rights bits) = length bits.
Proof. rewrite (Permutation_length (sides_perm bits)), map_length. apply trail_length. Qed.

(** The turn at a node of the trail is unique. *)
Lemma trail_functional bits n b c : In (n, b) (trail 0 bits) -> In (n, c) (trail 0 bits) -> b = c.
Proof.
  intros H K. apply trail_split in H. apply trail_split in K.
  destruct H as (u & v & E & Hn). destruct K as (u' & v' & E' & Hn').
  assert (u = u') by (apply pos_inj; congruence). subst u'.
  rewrite E in E'. apply app_inv_head in E'. congruence.
Qed.

(** * Walking *)

Lemma route_bits left_at bits : forall i,
  (forall n b, In (n, b) (trail i bits) -> left_at n = b) -> route (length bits) left_at i = pos i bits.
Proof.
  induction bits as [|b bs IH]; intros i H; simpl; auto.
  rewrite (H i b) by (simpl; auto). unfold pos. simpl.
  change (if b then i + (i + 0) + 1 else i + (i + 0) + 2) with (child i b).
  apply (IH (child i b)). intros n c Hc. apply H. simpl. auto.
Qed.

Fixpoint turns (d : nat) (left_at : nat -> bool) (i : nat) : list bool :=
  match d with O => [] | S d' => left_at i :: turns d' left_at (child i (left_at i)) end.
Lemma turns_length d : forall left_at i, length (turns d left_at i) = d.
Proof. induction d; intros; simpl; auto. Qed.
Lemma turns_trail d : forall left_at i n b, In (n, b) (trail i (turns d left_at i)) -> left_at n = b.
Proof.
  induction d as [|d IH]; intros left_at i n b; simpl; [tauto|].
  intros [E|H]; [congruence|]. eapply IH; eauto.
Qed.
Lemma route_turns d left_at i : route d left_at i = pos i (turns d left_at i).
Proof. rewrite <- (turns_length d left_at i) at 1. apply route_bits. apply turns_trail. Qed.

Lemma leaf_reached_turns d left_at : leaf_reached d left_at = num (turns d left_at 0).
Proof.
  unfold leaf_reached. rewrite route_turns, (pos_leaf d) by apply turns_length. unfold leaf_pos. lia.
Qed.
Lemma leaf_reached_lt d left_at : leaf_reached d left_at < 2 ^ d.
Proof. rewrite leaf_reached_turns. rewrite <- (turns_length d left_at 0) at 2. apply num_lt. Qed.

(** A leaf is the one reached iff every turn on its trail is the one taken. *)
Lemma leaf_reached_iff left_at bits :
  leaf_reached (length bits) left_at = num bits <-> (forall n b, In (n, b) (trail 0 bits) -> left_at n = b).
Proof.
  split.
  - intros H n b Hb. rewrite leaf_reached_turns in H. apply num_inj in H; [|apply turns_length].
    rewrite <- H in Hb. eapply turns_trail; eauto.
  - intros H. unfold leaf_reached. rewrite (route_bits left_at bits 0 H), (pos_leaf _ bits eq_refl).
    unfold leaf_pos. lia.
Qed.

Lemma pos_ge bits : forall i, i <= pos i bits.
Proof.
  induction bits as [|b bs IH]; intros i; [simpl; lia|].
  change (pos i (b :: bs)) with (pos (child i b) bs). specialize (IH (child i b)). pose proof (child_le i b). lia.
Qed.

From Coq Require Import Sorted.
Lemma trail_sorted bits : StronglySorted gt (rev (map fst (trail 0 bits))).
Proof.
  induction bits as [|b bs IH] using rev_ind; [constructor|].
  rewrite trail_app, map_app, rev_app_distr. simpl. constructor; auto.
  apply Forall_forall. intros n Hn. apply in_rev in Hn. apply in_map_iff in Hn.
  destruct Hn as [[m c] [E H]]. simpl in E. subst m. apply trail_split in H. destruct H as (u & v & -> & ->).
  rewrite pos_app. change (pos (pos 0 u) (c :: v)) with (pos (child (pos 0 u) c) v).
  pose proof (pos_ge v (child (pos 0 u) c)). pose proof (child_le (pos 0 u) c). lia.
Qed.

(** Leaves with the same left and right nodes are equal. *)
Lemma trail_same a b : length a = length b ->
  (forall n, In n (lefts a) <-> In n (lefts b)) -> (forall n, In n (rights a) <-> In n (rights b)) -> a = b.
Proof.
  intros Hl HL HR. apply num_inj; auto.
  assert (E : leaf_reached (length a) (fun n => memb n (lefts a)) = num a).
  { apply leaf_reached_iff. intros n c H. destruct c.
    - apply memb_In, lefts_In. exact H.
    - apply memb_false. rewrite lefts_In. intros K. pose proof (trail_functional a n _ _ H K). discriminate. }
  rewrite <- E, Hl. apply leaf_reached_iff. intros n c H. destruct c.
  - apply memb_In, HL, lefts_In. exact H.
  - apply memb_false. intros K. apply HL, lefts_In in K. pose proof (trail_functional b n _ _ H K). discriminate.
Qed.

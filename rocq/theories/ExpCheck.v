(** Boolean checks for CART trees, used by the examples. *)
From Verif Require Import Base Lp LpProofs TreeModel ExpModel SpecTree SpecExp SpecPrep.
Open Scope nat_scope.

Definition kid (c : cart) (i : nat) (side : bool) : option nat :=
  match nth_error (ct_left c) i, nth_error (ct_right c) i with
  | Some a, Some b => if (a =? b)%Z then None else if ((if side then a else b) <? 0)%Z then None else Some (Z.to_nat (if side then a else b))
  | _, _ => None
  end.
Definition innerb (c : cart) (i : nat) : bool :=
  match nth_error (ct_left c) i, nth_error (ct_right c) i with Some a, Some b => negb (a =? b)%Z | _, _ => false end.
Lemma innerb_iff c i : innerb c i = true <-> inner c i.
Proof.
  unfold innerb, inner. destruct (nth_error (ct_left c) i) as [a|]; [|split; [discriminate|intros (a & b & H & _); discriminate]].
  destruct (nth_error (ct_right c) i) as [b|]; [|split; [discriminate|intros (a' & b & _ & H & _); discriminate]].
  rewrite negb_true_iff, Z.eqb_neq. split; [eauto 6|]. intros (a' & b' & E1 & E2 & H). congruence.
Qed.
Lemma kid_iff c i side j : kid c i side = Some j <-> cart_child c i side j.
Proof.
  unfold kid, cart_child, inner. split.
  - destruct (nth_error (ct_left c) i) as [a|] eqn:Ea; [|discriminate]. destruct (nth_error (ct_right c) i) as [b|] eqn:Eb; [|discriminate].
    destruct (Z.eqb_spec a b); [discriminate|]. destruct (Z.ltb_spec (if side then a else b) 0); [discriminate|]. intros E. injection E as <-.
    split; [exists a, b; auto|]. destruct side; rewrite ?Ea, ?Eb; f_equal; lia.
  - intros [(a & b & Ea & Eb & Hab) E]. rewrite Ea, Eb. destruct (Z.eqb_spec a b); [contradiction|].
    destruct side; [rewrite Ea in E|rewrite Eb in E]; injection E as ->; (destruct (Z.ltb_spec (Z.of_nat j) 0); [lia|]); f_equal; lia.
Qed.

Definition edges (c : cart) : list (nat * bool) := list_prod (seq 0 (ct_count c)) [true; false].
Definition is_kid (c : cart) (j : nat) (e : nat * bool) : bool := match kid c (fst e) (snd e) with Some k => k =? j | None => false end.
Definition cart_okb (c : cart) : bool :=
  (0 <? ct_count c) && (length (ct_right c) =? ct_count c) && (length (ct_feature c) =? ct_count c) && (length (ct_threshold c) =? ct_count c) &&
  forallb (fun e => negb (innerb c (fst e)) || match kid c (fst e) (snd e) with Some j => (fst e <? j) && (j <? ct_count c) | None => false end) (edges c) &&
  forallb (fun j => length (filter (is_kid c j) (edges c)) =? 1) (seq 1 (ct_count c - 1)).
Lemma edge_in c i side : i < ct_count c -> In (i, side) (edges c).
Proof. intros H. apply in_prod; [apply in_seq; lia|destruct side; cbn; auto]. Qed.
Lemma inner_count c i : inner c i -> i < ct_count c.
Proof. intros (a & b & E & _). unfold ct_count. apply nth_error_Some. congruence. Qed.
Lemma cart_okb_ok c : cart_okb c = true -> cart_ok c.
Proof.
  unfold cart_okb. intros H. repeat (apply andb_true_iff in H; destruct H as [H ?]). apply Nat.ltb_lt in H. apply Nat.eqb_eq in H2, H3, H4. rewrite forallb_forall in H0, H1.
  assert (K : forall i side, inner c i -> exists j, kid c i side = Some j /\ i < j /\ j < ct_count c).
  { intros i side Hi. specialize (H1 (i, side) (edge_in c i side (inner_count c i Hi))). cbn [fst snd] in H1. rewrite (proj2 (innerb_iff c i) Hi) in H1. cbn [negb orb] in H1.
    destruct (kid c i side) as [j|]; [|discriminate]. apply andb_true_iff in H1. rewrite !Nat.ltb_lt in H1. exists j. tauto. }
  constructor; auto.
  - intros i side Hi. destruct (K i side Hi) as (j & E & _). exists j. apply kid_iff. auto.
  - intros i side j Hc. pose proof (proj1 Hc) as Hi. apply kid_iff in Hc. destruct (K i side Hi) as (j' & E & Hj). replace j with j' by congruence. exact Hj.
  - intros j Hj1 Hj2. specialize (H0 j ltac:(apply in_seq; lia)). destruct (filter (is_kid c j) (edges c)) as [|[i side] l] eqn:E; [discriminate|].
    exists i, side. apply kid_iff. assert (Hin : In (i, side) (filter (is_kid c j) (edges c))) by (rewrite E; left; auto). apply filter_In in Hin. destruct Hin as [_ Hk].
    unfold is_kid in Hk. cbn [fst snd] in Hk. destruct (kid c i side) as [k|]; [|discriminate]. apply Nat.eqb_eq in Hk. congruence.
  - intros i i' side side' j Hc Hc'. pose proof (inner_count c i (proj1 Hc)) as Hi. pose proof (inner_count c i' (proj1 Hc')) as Hi'.
    pose proof (proj1 Hc) as In1. apply kid_iff in Hc, Hc'. destruct (K i side In1) as (j0 & E0 & Hj). rewrite Hc in E0. injection E0 as <-.
    specialize (H0 j ltac:(apply in_seq; lia)). apply Nat.eqb_eq in H0.
    assert (I1 : In (i, side) (filter (is_kid c j) (edges c))) by (apply filter_In; split; [apply edge_in; auto|unfold is_kid; cbn; rewrite Hc; apply Nat.eqb_refl]).
    assert (I2 : In (i', side') (filter (is_kid c j) (edges c))) by (apply filter_In; split; [apply edge_in; auto|unfold is_kid; cbn; rewrite Hc'; apply Nat.eqb_refl]).
    destruct (filter (is_kid c j) (edges c)) as [|e [|e' l]]; try discriminate. destruct I1 as [->|[]]. destruct I2 as [E|[]]. injection E as -> ->. auto.
Qed.

(** [ps] lists the positions of all nodes: it contains the root and, with an inner node, its children. *)
Definition pairb (a b : nat * nat) : bool := (fst a =? fst b) && (snd a =? snd b).
Definition has_pos (ps : list (nat * nat)) (a : nat * nat) : bool := existsb (pairb a) ps.
Definition closedb (c : cart) (ps : list (nat * nat)) : bool :=
  has_pos ps (0, 0) &&
  forallb (fun ih => match kid c (fst ih) true with Some j => has_pos ps (j, 2 * snd ih + 1) | None => true end &&
                     match kid c (fst ih) false with Some j => has_pos ps (j, 2 * snd ih + 2) | None => true end) ps.
Lemma has_In ps a : has_pos ps a = true -> In a ps.
Proof.
  unfold has_pos, pairb. rewrite existsb_exists. intros (b & Hb & E). apply andb_true_iff in E. rewrite !Nat.eqb_eq in E. destruct a, b; cbn in E. destruct E as [-> ->]. auto.
Qed.
Lemma closedb_ok c ps i h : closedb c ps = true -> positioned c i h -> In (i, h) ps.
Proof.
  unfold closedb. intros H P. apply andb_true_iff in H. destruct H as [H0 H]. rewrite forallb_forall in H.
  induction P as [|i j h P IH Hc|i j h P IH Hc]; [apply has_In; auto| |]; specialize (H _ IH); cbn [fst snd] in H; apply andb_true_iff in H; destruct H as [H1 H2]; apply kid_iff in Hc.
  - rewrite Hc in H1. apply has_In. auto.
  - rewrite Hc in H2. apply has_In. auto.
Qed.
(** The tests of the tree: position, feature, threshold. *)
Definition all_tests (c : cart) (ps : list (nat * nat)) : list (nat * nat * Q) :=
  flat_map (fun ih => if innerb c (fst ih) then
      match nth_error (ct_feature c) (fst ih), nth_error (ct_threshold c) (fst ih) with Some f, Some t => [(snd ih, f, t)] | _, _ => [] end else []) ps.
Lemma all_tests_ok c ps h f t : closedb c ps = true -> tests_at c h f t -> In (h, f, t) (all_tests c ps).
Proof.
  intros Hc (i & P & Hi & Ef & Et). unfold all_tests. apply in_flat_map. exists (i, h). split; [apply (closedb_ok c ps); auto|]. cbn [fst snd].
  rewrite (proj2 (innerb_iff c i) Hi), Ef, Et. left. auto.
Qed.
Definition cart_forb (d m : nat) (c : cart) (ps : list (nat * nat)) : bool :=
  cart_okb c && closedb c ps && forallb (fun hft => (fst (fst hft) <? 2 ^ d - 1) && (snd (fst hft) <? m)) (all_tests c ps).
Lemma cart_forb_ok d m c ps : cart_forb d m c ps = true -> cart_for d m c.
Proof.
  unfold cart_forb. intros H. apply andb_true_iff in H. destruct H as [H H2]. apply andb_true_iff in H. destruct H as [H0 H1]. split; [apply cart_okb_ok; auto|].
  rewrite forallb_forall in H2. intros h f t T. specialize (H2 _ (all_tests_ok c ps h f t H1 T)). cbn [fst snd] in H2. apply andb_true_iff in H2. rewrite !Nat.ltb_lt in H2. exact H2.
Qed.

(** The leaf a sample reaches. *)
Fixpoint drop (n : nat) (c : cart) (x : sample) (i : nat) : option nat :=
  match n with
  | O => None
  | S n' =>
    if innerb c i then
      match nth_error (ct_feature c) i, nth_error (ct_threshold c) i with
      | Some f, Some t => match kid c i (Qle_bool (nth f x 0%Q) t) with Some j => drop n' c x j | None => None end
      | _, _ => None
      end
    else Some i
  end.
Lemma drop_sound c x : forall n k j i, descends c x k j -> drop n c x j = Some i -> exists k', descends c x k' i /\ ~ inner c i.
Proof.
  induction n as [|n IH]; intros k j i D E; [discriminate|]. cbn [drop] in E. destruct (innerb c j) eqn:Ei.
  - destruct (nth_error (ct_feature c) j) as [f|] eqn:Ef; [|discriminate]. destruct (nth_error (ct_threshold c) j) as [t|] eqn:Et; [|discriminate].
    destruct (kid c j (Qle_bool (nth f x 0%Q) t)) as [j'|] eqn:Ek; [|discriminate]. apply (IH (S k) j' i); [|exact E].
    apply innerb_iff in Ei. eapply ds_step; [exact D|split; [exact Ei|split; [exact Ef|exact Et]]|apply kid_iff; exact Ek].
  - injection E as <-. exists k. split; [exact D|]. intros H. apply innerb_iff in H. congruence.
Qed.
Lemma descends_same c x k i : descends c x k i -> forall i', descends c x k i' -> i = i'.
Proof.
  intros D. induction D as [|k i f t j D IH T H]; intros j' D'; inversion D' as [|k' i' f' t' j'' D'' T' H']; subst; auto.
  rewrite <- (IH i' D'') in *. destruct T as (_ & T1 & T2), T' as (_ & T1' & T2'). rewrite T1 in T1'. rewrite T2 in T2'. injection T1' as <-. injection T2' as <-.
  apply kid_iff in H, H'. congruence.
Qed.
Lemma descends_before c x k i : descends c x k i -> forall k', k' < k -> exists i', descends c x k' i' /\ inner c i'.
Proof.
  intros D. induction D as [|k i f t j D IH T H]; intros k' Hk; [lia|]. destruct (Nat.eq_dec k' k) as [->|Hne]; [exists i; split; [exact D|apply T]|]. apply IH. lia.
Qed.
Lemma leaf_unique c x k i k' i' : descends c x k i -> ~ inner c i -> descends c x k' i' -> ~ inner c i' -> i = i'.
Proof.
  intros D N D' N'. destruct (Nat.lt_trichotomy k k') as [Hlt|[<-|Hlt]].
  - destruct (descends_before _ _ _ _ D' k Hlt) as (i2 & D2 & N2). rewrite (descends_same _ _ _ _ D _ D2) in N. contradiction.
  - apply (descends_same _ _ _ _ D _ D').
  - destruct (descends_before _ _ _ _ D k' Hlt) as (i2 & D2 & N2). rewrite (descends_same _ _ _ _ D' _ D2) in N'. contradiction.
Qed.
Definition cart_right (n : nat) (c : cart) (label : nat -> nat) (X : list sample) (y : list nat) : list nat :=
  filter (fun r => match nth_error X r, nth_error y r with
                   | Some x, Some t => match drop n c x 0 with Some i => label i =? t | None => false end
                   | _, _ => false end) (seq 0 (length X)).
Lemma cart_right_ok n c label X y : forallb (fun x => match drop n c x 0 with Some _ => true | None => false end) X = true ->
  right_rows X y (cart_class c label) (cart_right n c label X y).
Proof.
  intros H. rewrite forallb_forall in H. split; [apply NoDup_filter, seq_NoDup|]. intros r. unfold cart_right. rewrite filter_In, in_seq. split.
  - intros [Hr E]. destruct (nth_error X r) as [x|] eqn:Ex; [|discriminate]. destruct (nth_error y r) as [t|] eqn:Et; [|discriminate]. exists x, t. split; [auto|split; [auto|]].
    destruct (drop n c x 0) as [i|] eqn:Ed; [|discriminate]. apply Nat.eqb_eq in E. destruct (drop_sound c x n 0 0 i (ds_root c x) Ed) as (k & D & N). exists k, i. auto.
  - intros (x & t & Ex & Et & k & i & D & N & L). assert (Hlt : r < length X) by (apply nth_error_Some; congruence). split; [lia|]. rewrite Ex, Et.
    specialize (H x (nth_error_In _ _ Ex)). destruct (drop n c x 0) as [i'|] eqn:Ed; [|discriminate]. destruct (drop_sound c x n 0 0 i' (ds_root c x) Ed) as (k' & D' & N').
    rewrite (leaf_unique _ _ _ _ _ _ D' N' D N). apply Nat.eqb_eq. exact L.
Qed.

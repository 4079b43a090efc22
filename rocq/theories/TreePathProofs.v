(** Facts about paths: which rows follow them, equality, validation of constructor arguments. *)
From Verif Require Import Base Lp TreeModel SpecTree TreeGeoProofs.
Open Scope nat_scope.

Definition followsb (lf : leaf) (left_split : nat -> bool) (p : path) : bool :=
  forallb (fun nk => Bool.eqb (left_split (snd nk)) (memb (fst nk) (l_left lf))) (choices p).

Lemma followsb_iff lf L p : followsb lf L p = true <-> follows lf L p.
Proof.
  unfold followsb, follows. rewrite forallb_forall. split.
  - intros H n k Hin. specialize (H (n, k) Hin). simpl in H. apply eqb_prop in H. rewrite H. apply memb_In.
  - intros H [n k] Hin. simpl. specialize (H n k Hin). rewrite <- memb_In in H.
    destruct (L k), (memb n (l_left lf)); simpl; auto; exfalso; destruct H as [H1 H2]; [discriminate H1|discriminate H2]; auto.
Qed.

Lemma followsb_ext lf L L' p : (forall k, In k (p_splits p) -> L k = L' k) -> followsb lf L p = followsb lf L' p.
Proof.
  intros H. unfold followsb. unfold choices. revert H. generalize (p_splits p). induction (p_nodes p) as [|n ns IH]; intros ks H; simpl; auto.
  destruct ks as [|k ks]; simpl; auto. rewrite (H k) by (simpl; auto). f_equal. apply IH. intros. apply H. simpl; auto.
Qed.

Lemma getitem_mid {A} (u : list A) a v : getitem (u ++ a :: v) (length u) = Ok a.
Proof. unfold getitem. rewrite nth_error_app2, Nat.sub_diag by lia. reflexivity. Qed.

Lemma getitem_nth {A} (l : list A) i a : nth_error l i = Some a -> getitem l i = Ok a.
Proof. intros H. unfold getitem. rewrite H. reflexivity. Qed.

Lemma fits_getitem splits x s : fits splits x -> In s splits -> getitem x (s_feature s) = Ok (nth (s_feature s) x 0%Q).
Proof.
  intros H Hs. apply getitem_nth. apply nth_error_nth'. apply H. exact Hs.
Qed.

Lemma row_satisfies_loop_ok x lf splits p : fits splits x ->
  forall ns ks un uk, p_nodes p = un ++ ns -> p_splits p = uk ++ ks -> length un = length uk -> length ns = length ks ->
  Forall (fun k => k < length splits) ks ->
  row_satisfies_loop x lf splits p (seq (length un) (length ns)) =
  Ok (forallb (fun nk => Bool.eqb (goes_left splits x (snd nk)) (memb (fst nk) (l_left lf))) (combine ns ks)).
Proof.
  intros Hfit ns. induction ns as [|n ns IH]; intros ks un uk Hn Hk Hu Hl Hr; simpl; auto.
  destruct ks as [|k ks]; [discriminate|]. inversion Hr as [|? ? Hk0 Hr']; subst.
  rewrite Hk, Hn. rewrite Hu at 1. rewrite getitem_mid. simpl.
  destruct (nth_error splits k) as [s|] eqn:Es; [|apply nth_error_None in Es; lia].
  rewrite (getitem_nth _ _ _ Es). simpl. rewrite getitem_mid. simpl.
  assert (Hs : In s splits) by (eapply nth_error_In; eauto).
  rewrite (fits_getitem _ _ _ Hfit Hs). simpl.
  specialize (IH ks (un ++ [n]) (uk ++ [k])).
  rewrite <- !app_assoc in IH. specialize (IH Hn Hk). rewrite !app_length in IH. simpl in IH.
  replace (length un + 1) with (S (length un)) in IH by lia.
  specialize (IH ltac:(lia) ltac:(simpl in Hl; lia) Hr').
  unfold goes_left at 1. rewrite Es. unfold sample_left, Qltb.
  destruct (memb n (l_left lf)), (Qle_bool (nth (s_feature s) x 0%Q) (s_threshold s)); simpl; auto.
Qed.

Lemma row_satisfies_path_ok x lf splits p : fits splits x -> length (p_nodes p) = length (p_splits p) ->
  Forall (fun k => k < length splits) (p_splits p) ->
  row_satisfies_path x lf splits p = Ok (followsb lf (goes_left splits x) p).
Proof.
  intros Hf Hl Hr. unfold row_satisfies_path, followsb, choices.
  apply (row_satisfies_loop_ok x lf splits p Hf (p_nodes p) (p_splits p) [] []); auto.
Qed.

Lemma row_satisfies_path_iff x lf splits p : fits splits x -> length (p_nodes p) = length (p_splits p) ->
  Forall (fun k => k < length splits) (p_splits p) ->
  row_satisfies_path x lf splits p = Ok true <-> follows lf (goes_left splits x) p.
Proof.
  intros Hf Hl Hr. rewrite row_satisfies_path_ok, <- followsb_iff by auto.
  destruct (followsb lf (goes_left splits x) p); split; congruence.
Qed.

(** * The set based computation *)

Section Sat.
Variables (left right : split -> list nat) (p : path) (lf : leaf) (splits : list split).
Let branch n s := if memb n (l_left lf) then left s else right s.

Lemma get_satisfied_loop : forall ns ks un uk acc,
  p_nodes p = un ++ ns -> p_splits p = uk ++ ks -> length un = length uk -> length ns = length ks ->
  Forall (fun k => k < length splits) ks ->
  exists l, for_each (seq (length un) (length ns))
    (fun i acc =>
       let* k := getitem (p_splits p) i in
       let* s := getitem splits k in
       let* n := getitem (p_nodes p) i in
       Ok (set_inter acc (branch n s))) acc = Ok l /\
  (NoDup acc -> NoDup l) /\
  (forall r, In r l <-> In r acc /\ forall n k s, In (n, k) (combine ns ks) -> nth_error splits k = Some s -> In r (branch n s)).
Proof.
  induction ns as [|n ns IH]; intros ks un uk acc Hn Hk Hu Hl Hr.
  - exists acc. simpl. split; [auto|]. split; [auto|]. intros r. split; [|tauto]. intros H. split; auto. intros; contradiction.
  - destruct ks as [|k ks]; [discriminate|]. inversion Hr as [|? ? Hk0 Hr']; subst.
    destruct (nth_error splits k) as [s|] eqn:Es; [|apply nth_error_None in Es; lia].
    specialize (IH ks (un ++ [n]) (uk ++ [k]) (set_inter acc (branch n s))).
    rewrite <- !app_assoc in IH. specialize (IH Hn Hk). rewrite !app_length in IH. simpl in IH.
    replace (length un + 1) with (S (length un)) in IH by lia.
    destruct IH as (l & E & Hd & Hi); [lia|simpl in Hl; lia|auto|].
    exists l. split; [|split].
    + simpl. rewrite Hk, Hn. rewrite Hu at 1. rewrite getitem_mid. simpl.
      rewrite (getitem_nth _ _ _ Es). simpl. rewrite getitem_mid. simpl. rewrite <- Hk, <- Hn. exact E.
    + intros Ha. apply Hd. unfold set_inter. apply NoDup_filter. exact Ha.
    + intros r. rewrite Hi. rewrite set_inter_In. simpl. split.
      * intros [[H1 H2] H3]. split; auto. intros n' k' s' [Ee|H4] H5.
        -- injection Ee as -> ->. rewrite Es in H5. injection H5 as <-. auto.
        -- eauto.
      * intros [H1 H2]. split; [split; auto; apply (H2 n k); auto|]. intros. apply (H2 n0 k0); auto.
Qed.

Lemma get_satisfied_ok : length (p_nodes p) = length (p_splits p) -> 0 < length (p_splits p) ->
  Forall (fun k => k < length splits) (p_splits p) ->
  exists l, get_satisfied left right p lf splits = Ok l /\
  ((forall s, In s splits -> NoDup (left s) /\ NoDup (right s)) -> NoDup l) /\
  (forall r, In r l <-> forall n k s, In (n, k) (choices p) -> nth_error splits k = Some s -> In r (branch n s)).
Proof.
  intros Hl Hp Hr. destruct (p_nodes p) as [|n ns] eqn:En; [simpl in Hl; lia|].
  destruct (p_splits p) as [|k ks] eqn:Ek; [simpl in Hp; lia|].
  inversion Hr as [|? ? Hk0 Hr']; subst.
  destruct (nth_error splits k) as [s|] eqn:Es; [|apply nth_error_None in Es; lia].
  destruct (get_satisfied_loop ns ks [n] [k] (branch n s)) as (l & E & Hd & Hi); auto.
  exists l. split; [|split].
  - unfold get_satisfied. rewrite En, Ek. simpl. rewrite (getitem_nth _ _ _ Es). simpl.
    rewrite Nat.sub_0_r. rewrite En, Ek in E. exact E.
  - intros H. apply Hd. assert (Hs : In s splits) by (eapply nth_error_In; eauto).
    unfold branch. destruct (memb n (l_left lf)); apply H; auto.
  - intros r. rewrite Hi. unfold choices. rewrite En, Ek. simpl. split.
    + intros [H1 H2] n' k' s' [Ee|H4] H5.
      * injection Ee as <- <-. rewrite Es in H5. injection H5 as <-. auto.
      * eauto.
    + intros H. split; [apply (H n k); auto|]. intros. apply (H n0 k0); auto.
Qed.
End Sat.

Lemma rows_recorded_in X splits : rows_recorded X splits -> forall s r x, In s splits -> nth_error X r = Some x ->
  (In r (s_lrows s) <-> sample_left x s = true) /\ (In r (s_rrows s) <-> sample_left x s = false).
Proof.
  intros H s r x Hs Hx. destruct (H s Hs) as [HL HR]. rewrite HL, HR. split.
  - split; [intros (x' & E & E')|]; [congruence|eauto].
  - split; [intros (x' & E & E')|]; [congruence|eauto].
Qed.

Lemma satisfied_rows_spec X splits p lf : rows_recorded X splits ->
  length (p_nodes p) = length (p_splits p) -> 0 < length (p_splits p) ->
  Forall (fun k => k < length splits) (p_splits p) ->
  exists l, get_satisfied_rows p lf splits = Ok l /\
    ((forall s, In s splits -> NoDup (s_lrows s) /\ NoDup (s_rrows s)) -> NoDup l) /\
    forall r, In r l <-> exists x, nth_error X r = Some x /\ follows lf (goes_left splits x) p.
Proof.
  intros Hrec Hl Hp Hr.
  destruct (get_satisfied_ok s_lrows s_rrows p lf splits Hl Hp Hr) as (l & E & Hd & Hi).
  exists l. split; [exact E|]. split; [exact Hd|]. intros r. rewrite Hi. split.
  - intros H. assert (Hx : exists x, nth_error X r = Some x).
    { destruct (p_nodes p) as [|n ns] eqn:En; [simpl in Hl; lia|].
      destruct (p_splits p) as [|k ks] eqn:Ek; [simpl in Hp; lia|].
      inversion Hr as [|? ? Hk0 Hr']; subst.
      destruct (nth_error splits k) as [s|] eqn:Es; [|apply nth_error_None in Es; lia].
      assert (Hc : In (n, k) (choices p)) by (unfold choices; rewrite En, Ek; simpl; auto).
      specialize (H n k s Hc Es).
      assert (Hs : In s splits) by (eapply nth_error_In; eauto). destruct (Hrec s Hs) as [HL HR].
      destruct (memb n (l_left lf)); [apply HL in H|apply HR in H]; destruct H as (x & ? & _); eauto. }
    destruct Hx as [x Hx]. exists x. split; auto. intros n k Hc.
    assert (Hk : k < length splits).
    { rewrite Forall_forall in Hr. apply Hr. unfold choices in Hc. eapply in_combine_r; eauto. }
    destruct (nth_error splits k) as [s|] eqn:Es; [|apply nth_error_None in Es; lia].
    specialize (H n k s Hc Es). unfold goes_left. rewrite Es.
    assert (Hs : In s splits) by (eapply nth_error_In; eauto).
    destruct (rows_recorded_in X splits Hrec s r x Hs Hx) as [HL HR].
    rewrite <- memb_In. destruct (memb n (l_left lf)).
    + apply HL in H. rewrite H. tauto.
    + apply HR in H. rewrite H. split; discriminate.
  - intros (x & Hx & H) n k s Hc Es. specialize (H n k Hc). unfold goes_left in H. rewrite Es in H.
    assert (Hs : In s splits) by (eapply nth_error_In; eauto).
    destruct (rows_recorded_in X splits Hrec s r x Hs Hx) as [HL HR].
    rewrite <- memb_In in H. destruct (memb n (l_left lf)).
    + apply HL, H. reflexivity.
    + apply HR. destruct (sample_left x s); auto. exfalso. destruct H as [H _]. discriminate H. reflexivity.
Qed.

(** * Paths of the complete tree *)

Lemma complete_leaves_nth d l : l < 2 ^ d -> nth_error (complete_leaves d) l = Some (create_leaf l d).
Proof.
  intros H. unfold complete_leaves. rewrite nth_error_map, nth_error_nth' with (d := 0) by (rewrite seq_length; auto).
  rewrite seq_nth by auto. reflexivity.
Qed.
Lemma complete_leaves_length d : length (complete_leaves d) = 2 ^ d.
Proof. unfold complete_leaves. rewrite map_length, seq_length. reflexivity. Qed.

Lemma combine_In_fst {A B} (l : list A) (m : list B) a : length l = length m -> In a l -> exists b, In (a, b) (combine l m).
Proof.
  revert m. induction l as [|x l IH]; intros [|y m] Hl H; simpl in *; try discriminate; [contradiction|].
  destruct H as [->|H]; [exists y; auto|]. destruct (IH m) as [b Hb]; auto. exists b; auto.
Qed.

Section TreePath.
Variables (d : nat) (splits : list split) (p : path).
Hypothesis Hp : tree_path d splits p.

Lemma tree_path_bits : exists bits, length bits = d /\ num bits = p_leaf p /\
  create_leaf (p_leaf p) d = mkLeaf (p_leaf p) (lefts bits) (rights bits) /\
  Permutation (p_nodes p) (map fst (trail 0 bits)).
Proof.
  destruct Hp as (Hl & Hperm & _). destruct (leaf_bits d _ Hl) as (bits & H1 & H2 & H3).
  exists bits. rewrite <- H2 in Hperm |- *. rewrite (create_leaf_bits d bits H1) in *. simpl in Hperm.
  repeat split; auto. rewrite Hperm. apply sides_perm.
Qed.
Lemma tree_path_lengths : length (p_nodes p) = d /\ length (p_splits p) = d.
Proof.
  destruct tree_path_bits as (bits & H1 & _ & _ & H2). destruct Hp as (_ & _ & H3 & _). split; auto.
  rewrite (Permutation_length H2), map_length, trail_length. auto.
Qed.
Lemma tree_path_range : Forall (fun k => k < length splits) (p_splits p).
Proof. apply Hp. Qed.
Lemma tree_path_NoDup : NoDup (p_nodes p).
Proof.
  destruct tree_path_bits as (bits & _ & _ & _ & H2).
  eapply Permutation_NoDup; [apply Permutation_sym; exact H2|apply trail_nodes_NoDup].
Qed.

(** Which rows follow a path of the complete tree, in terms of turns. *)
Lemma follows_bits L bits : length bits = d -> num bits = p_leaf p ->
  follows (create_leaf (p_leaf p) d) L p <->
  (forall n k, In (n, k) (choices p) -> In (n, L k) (trail 0 bits)).
Proof.
  intros H1 H2. rewrite <- H2, (create_leaf_bits d bits H1).
  destruct tree_path_bits as (bits' & H1' & H2' & _ & Hperm).
  assert (bits' = bits) by (apply num_inj; congruence). subst bits'.
  assert (Hin : forall n k, In (n, k) (choices p) -> exists b, In (n, b) (trail 0 bits)).
  { intros n k Hc. unfold choices in Hc. apply in_combine_l in Hc.
    apply (Permutation_in _ Hperm) in Hc. apply in_map_iff in Hc. destruct Hc as [[n' b] [E H]]. simpl in E. subst. eauto. }
  unfold follows. simpl. split; intros H n k Hc; specialize (H n k Hc).
  - rewrite lefts_In in H. destruct (Hin n k Hc) as [b Hb]. destruct (L k); [apply H; auto|].
    destruct b; auto. exfalso. destruct H as [_ H]. discriminate H. exact Hb.
  - rewrite lefts_In. destruct (L k); [tauto|]. split; [discriminate|]. intros K.
    pose proof (trail_functional bits n _ _ H K). discriminate.
Qed.

(** A row follows a path of a decision tree iff it reaches the leaf of the path. *)
Lemma follows_tree tree L : agrees tree p ->
  follows (create_leaf (p_leaf p) d) L p <-> leaf_reached d (fun n => L (tree n)) = p_leaf p.
Proof.
  intros Ha. destruct tree_path_bits as (bits & H1 & H2 & _ & Hperm).
  rewrite (follows_bits L bits H1 H2). rewrite <- H2, <- H1, leaf_reached_iff.
  destruct tree_path_lengths as [Hn Hk]. split.
  - intros H n b Hb. assert (Hin : In n (p_nodes p)).
    { apply (Permutation_in _ (Permutation_sym Hperm)). apply in_map_iff. exists (n, b). auto. }
    destruct (combine_In_fst (p_nodes p) (p_splits p) n) as [k Hc]; [congruence|auto|].
    specialize (H n k Hc). rewrite <- (Ha n k Hc). eapply trail_functional; eauto.
  - intros H n k Hc. rewrite (Ha n k Hc).
    assert (Hin : In n (map fst (trail 0 bits))).
    { apply (Permutation_in _ Hperm). unfold choices in Hc. eapply in_combine_l; eauto. }
    apply in_map_iff in Hin. destruct Hin as [[n' b] [E Hb]]. simpl in E. subst n'. rewrite (H n b Hb). exact Hb.
Qed.
End TreePath.

(** * Path equality *)

Lemma same_inner_ok n s q : forall ns ks un uk, p_nodes q = un ++ ns -> p_splits q = uk ++ ks ->
  length un = length uk -> length ns = length ks ->
  exists b, same_inner n s q (seq (length un) (length ns)) = Ok b /\ (b = true <-> In (n, s) (combine ns ks)).
Proof.
  induction ns as [|n' ns IH]; intros ks un uk Hn Hk Hu Hl; simpl.
  - exists false. split; auto. split; [discriminate|tauto].
  - destruct ks as [|k ks]; [discriminate|].
    destruct (IH ks (un ++ [n']) (uk ++ [k])) as (b & E & Hb).
    { rewrite <- app_assoc. exact Hn. } { rewrite <- app_assoc. exact Hk. }
    { rewrite !app_length. simpl. lia. } { simpl in Hl. lia. }
    rewrite app_length in E. simpl in E. replace (length un + 1) with (S (length un)) in E by lia.
    assert (G1 : getitem (p_nodes q) (length un) = Ok n') by (rewrite Hn; apply getitem_mid).
    assert (G2 : getitem (p_splits q) (length un) = Ok k) by (rewrite Hk, Hu; apply getitem_mid).
    rewrite G1. simpl. rewrite G2. simpl.
    rewrite E. simpl in *. destruct (Nat.eqb_spec n' n) as [->|Hne].
    + destruct (Nat.eqb_spec k s) as [->|Hne].
      * exists true. split; auto. split; auto.
      * exists b. split; auto. rewrite Hb. split; auto. intros [Ee|H]; auto. congruence.
    + exists b. split; auto. rewrite Hb. split; auto. intros [Ee|H]; auto. congruence.
Qed.

Lemma same_outer_ok p q : length (p_nodes q) = length (p_splits q) ->
  forall ns ks un uk, p_nodes p = un ++ ns -> p_splits p = uk ++ ks -> length un = length uk -> length ns = length ks ->
  exists b, same_outer p q (seq (length un) (length ns)) = Ok b /\
    (b = true <-> forall nk, In nk (combine ns ks) -> In nk (choices q)).
Proof.
  intros Hq. induction ns as [|n ns IH]; intros ks un uk Hn Hk Hu Hl; simpl.
  - exists true. split; auto. split; auto. intros _ nk [].
  - destruct ks as [|k ks]; [discriminate|].
    destruct (IH ks (un ++ [n]) (uk ++ [k])) as (b & E & Hb).
    { rewrite <- app_assoc. exact Hn. } { rewrite <- app_assoc. exact Hk. }
    { rewrite !app_length. simpl. lia. } { simpl in Hl. lia. }
    rewrite app_length in E. simpl in E. replace (length un + 1) with (S (length un)) in E by lia.
    assert (G1 : getitem (p_nodes p) (length un) = Ok n) by (rewrite Hn; apply getitem_mid).
    assert (G2 : getitem (p_splits p) (length un) = Ok k) by (rewrite Hk, Hu; apply getitem_mid).
    rewrite G1. simpl. rewrite G2. simpl.
    destruct (same_inner_ok n k q (p_nodes q) (p_splits q) [] [] eq_refl eq_refl eq_refl Hq) as (c & Ec & Hc).
    simpl in Ec. rewrite Ec. simpl. destruct c.
    + exists b. split; auto. rewrite Hb. split.
      * intros H nk [<-|Hnk]; auto. apply Hc. reflexivity.
      * intros H nk Hnk. apply H. auto.
    + exists false. split; auto. split; [discriminate|]. intros H. apply Hc. apply H. auto.
Qed.

Lemma is_same_as_ok p q : length (p_nodes p) = length (p_splits p) -> length (p_nodes q) = length (p_splits q) ->
  exists b, is_same_as p q = Ok b /\
    (b = true <-> p_leaf p = p_leaf q /\ p_target p = p_target q /\ (p_cost p == p_cost q)%Q /\
                  length (p_nodes p) = length (p_nodes q) /\ incl (choices p) (choices q)).
Proof.
  intros Hp Hq. unfold is_same_as.
  destruct (Nat.eqb_spec (p_leaf p) (p_leaf q)); simpl; [|exists false; split; auto; split; [discriminate|tauto]].
  destruct (Z.eqb_spec (p_target p) (p_target q)); simpl; [|exists false; split; auto; split; [discriminate|tauto]].
  destruct (Qeq_bool (p_cost p) (p_cost q)) eqn:Ec; simpl.
  2:{ exists false. split; auto. split; [discriminate|]. intros (_ & _ & H & _). apply Qeq_bool_iff in H. congruence. }
  apply Qeq_bool_iff in Ec.
  destruct (Nat.eqb_spec (length (p_nodes p)) (length (p_nodes q))); simpl; [|exists false; split; auto; split; [discriminate|tauto]].
  destruct (same_outer_ok p q Hq (p_nodes p) (p_splits p) [] [] eq_refl eq_refl eq_refl Hp) as (b & E & Hb).
  simpl in E. exists b. split; auto. rewrite Hb. unfold incl, choices. tauto.
Qed.

Lemma combine_NoDup_l {A B} (l : list A) (m : list B) : NoDup l -> NoDup (combine l m).
Proof.
  revert m. induction l as [|a l IH]; intros [|b m] H; simpl; try constructor.
  - intros Hin. apply in_combine_l in Hin. inversion H; auto.
  - apply IH. inversion H; auto.
Qed.

Lemma choices_length p : length (p_nodes p) = length (p_splits p) -> length (choices p) = length (p_nodes p).
Proof. intros H. unfold choices. rewrite combine_length. lia. Qed.

(** For duplicate-free lists of the same length inclusion means equality as sets. *)
Lemma incl_same {A} (l m : list A) : NoDup l -> length l = length m -> incl l m -> Permutation l m.
Proof. intros Hd Hl Hi. apply NoDup_Permutation_bis; auto. lia. Qed.

(** * Constructor validation *)

Lemma check_sequence_ok_from ids : forall k,
  for_each ids (fun id k => let* _ := assert (id =? k) in Ok (k + 1)) k =
  if list_eq_dec Nat.eq_dec ids (seq k (length ids)) then Ok (k + length ids) else Err AssertionError.
Proof.
  induction ids as [|i ids IH]; intros k.
  - simpl. rewrite Nat.add_0_r. reflexivity.
  - cbn [for_each length seq]. destruct (Nat.eqb_spec i k) as [->|Hne]; cbn [assert bind].
    + rewrite IH. replace (k + 1) with (S k) by lia.
      destruct (list_eq_dec Nat.eq_dec ids (seq (S k) (length ids))) as [E|E],
        (list_eq_dec Nat.eq_dec (k :: ids) (k :: seq (S k) (length ids))) as [E'|E']; try congruence.
      f_equal. lia.
    + destruct (list_eq_dec Nat.eq_dec (i :: ids) (k :: seq (S k) (length ids))) as [E'|E']; [congruence|reflexivity].
Qed.

Lemma assert_all {A} (f : A -> bool) l :
  for_each l (fun a (_ : unit) => assert (f a)) tt = assert (forallb f l).
Proof. induction l as [|a l IH]; simpl; auto. destruct (f a); simpl; auto. Qed.

Lemma check_path_ok depth targets lids nids sids p :
  check_path depth targets lids nids sids p =
  assert (memb (p_leaf p) lids && (forallb (fun n => memb n nids) (p_nodes p) &&
          (forallb (fun s => memb s sids) (p_splits p) && (existsb (Z.eqb (p_target p)) targets &&
          ((length (p_nodes p) =? depth) && (length (p_splits p) =? depth)))))).
Proof.
  unfold check_path. rewrite !assert_all. unfold assert.
  repeat (match goal with |- context [if ?b then _ else _] => destruct b end; simpl; auto).
Qed.

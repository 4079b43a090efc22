(** Initial paths of the experiment (proofs). *)
From Coq Require Import Sorted.
From Verif Require Import Base Lp TreeModel ExpModel SpecTree SpecTreeRun SpecTreeLp SpecExp TreeGeoProofs TreePathProofs TreeLpBuild TreeBuildProofs TreeInvProofs.
Open Scope nat_scope.

(** * Nodes above a leaf *)
Lemma fathers_trail bits : forall fuel, length bits <= fuel -> fathers fuel (pos 0 bits) = rev (trail 0 bits).
Proof.
  induction bits as [|b bs IH] using rev_ind; intros fuel Hf.
  - destruct fuel; reflexivity.
  - rewrite app_length in Hf. cbn in Hf. rewrite pos_snoc. pose proof (child_pos (pos 0 bs) b). destruct fuel as [|fuel]; [lia|].
    cbn [fathers]. destruct (Nat.eqb_spec (child (pos 0 bs) b) 0) as [E|_]; [lia|].
    rewrite child_father, IH by lia. rewrite trail_app, rev_app_distr. cbn [trail rev app]. f_equal. f_equal.
    unfold child. destruct b; [apply Nat.eqb_refl|apply Nat.eqb_neq; lia].
Qed.
Lemma fathers_of_bits d l : l < 2 ^ d -> exists bits, length bits = d /\ num bits = l /\ fathers_of d l = rev (trail 0 bits).
Proof.
  intros H. destruct (leaf_bits d l H) as (bits & H1 & H2 & H3). exists bits. split; auto. split; auto.
  unfold fathers_of. fold (leaf_pos d l). rewrite <- H3. apply fathers_trail. lia.
Qed.
Lemma fathers_leaf d l : l < 2 ^ d ->
  mkLeaf l (map fst (filter snd (fathers_of d l))) (map fst (filter (fun f => negb (snd f)) (fathers_of d l))) = create_leaf l d.
Proof.
  intros H. destruct (fathers_of_bits d l H) as (bits & H1 & H2 & E). rewrite E. subst l. rewrite (create_leaf_bits d bits H1). reflexivity.
Qed.
Lemma fathers_nodes d l : l < 2 ^ d ->
  Permutation (map fst (fathers_of d l)) (l_left (create_leaf l d) ++ l_right (create_leaf l d)) /\
  length (fathers_of d l) = d /\ above d l (map fst (fathers_of d l)) /\ Forall (fun n => n < 2 ^ d - 1) (map fst (fathers_of d l)).
Proof.
  intros H. destruct (fathers_of_bits d l H) as (bits & H1 & H2 & E). rewrite E. subst l.
  split; [|split; [|split]].
  - rewrite (create_leaf_bits d bits H1). cbn [l_left l_right]. rewrite sides_perm. apply Permutation_map. apply Permutation_sym, Permutation_rev.
  - rewrite rev_length, trail_length. auto.
  - rewrite map_rev. split; [apply trail_sorted|]. intros n. rewrite <- (pos_leaf d bits H1), <- in_rev, below_trail, in_map_iff. split.
    + intros [[m b] [E1 H3]]. cbn in E1. subst m. eauto.
    + intros [b H3]. exists (n, b). auto.
  - apply Forall_forall. intros n Hn. apply in_map_iff in Hn. destruct Hn as ([m b] & E1 & H3). cbn in E1. subst m. apply in_rev in H3.
    apply trail_split in H3. destruct H3 as (u & v & Eb & ->). apply pos_lt_inner. rewrite <- H1, Eb, app_length. cbn. lia.
Qed.

(** * Majority class *)
Section Majority.
Variables (splits : list split) (X : list sample) (y : list nat) (lf : leaf) (p : path).
Hypothesis Hy : length y = length X.
Hypothesis Hfit : Forall (fits splits) X.
Hypothesis Hlen : length (p_nodes p) = length (p_splits p).
Hypothesis Hrange : Forall (fun k => k < length splits) (p_splits p).

(** Row [r] is of class [t] and follows the path. *)
Definition mrow (t r : nat) : bool :=
  match nth_error X r, nth_error y r with
  | Some x, Some c => followsb lf (goes_left splits x) p && (c =? t)
  | _, _ => false
  end.
Definition mcount (u : list nat) (t : nat) : nat := length (filter (mrow t) u).
Definition counted_in (counts : list (nat * nat)) (t : nat) : nat := match assoc Nat.eqb counts t with Some q => q | None => 0 end.

Lemma counted_in_set counts t q t' : counted_in (assoc_set Nat.eqb counts t q) t' = if t =? t' then q else counted_in counts t'.
Proof.
  unfold counted_in. induction counts as [|[a b] l IH]; cbn [assoc_set assoc].
  - destruct (t =? t'); auto.
  - destruct (Nat.eqb_spec a t) as [->|Ha]; cbn [assoc].
    + destruct (t =? t'); auto.
    + destruct (Nat.eqb_spec a t') as [->|Ha']; auto. destruct (Nat.eqb_spec t t'); [congruence|auto].
Qed.

Lemma majority_ok y0 : nth_error y 0 = Some y0 ->
  exists t, majority splits X y lf p = Ok (t, mcount (seq 0 (length X)) t) /\ In t y /\
    forall t', mcount (seq 0 (length X)) t' <= mcount (seq 0 (length X)) t.
Proof.
  intros H0. unfold majority. rewrite (getitem_nth _ _ _ H0). cbn [bind].
  match goal with |- context [for_each _ ?b ?s] =>
    destruct (for_each_steps (seq 0 (length X)) b
      (fun u acc => let '(counts, best, cost) := acc in (forall t, counted_in counts t = mcount u t) /\ mcount u best = cost /\ In best y /\ forall t, mcount u t <= cost) s)
      as ([[counts best] cost] & E & H1 & H2 & H3 & H4) end.
  - split; [reflexivity|]. split; [reflexivity|]. split; [eapply nth_error_In; eauto|]. intros t. cbn. lia.
  - intros u r v [[counts best] cost] Eu (H1 & H2 & H3 & H4).
    assert (Hr : r < length X) by (assert (In r (seq 0 (length X))) by (rewrite Eu; apply in_or_app; right; left; auto); apply in_seq in H; lia).
    destruct (nth_error X r) as [x|] eqn:Ex; [|apply nth_error_None in Ex; lia].
    destruct (nth_error y r) as [c|] eqn:Ec; [|apply nth_error_None in Ec; lia].
    rewrite (getitem_nth _ _ _ Ex). cbn [bind].
    rewrite row_satisfies_path_ok; [|rewrite Forall_forall in Hfit; apply Hfit; eapply nth_error_In; eauto|auto|auto]. cbn [bind].
    assert (Hsnoc : forall t, mcount (u ++ [r]) t = mcount u t + if mrow t r then 1 else 0).
    { intros t. unfold mcount. rewrite filter_app, app_length. cbn [filter]. destruct (mrow t r); reflexivity. }
    assert (Hm : forall t, mrow t r = followsb lf (goes_left splits x) p && (c =? t)) by (intros t; unfold mrow; rewrite Ex, Ec; reflexivity).
    destruct (followsb lf (goes_left splits x) p).
    + rewrite (getitem_nth _ _ _ Ec). cbn [bind]. eexists. split; [reflexivity|]. cbv beta zeta iota.
      assert (Eq : match assoc Nat.eqb counts c with Some q => q + 1 | None => 1 end = mcount u c + 1).
      { specialize (H1 c). unfold counted_in in H1. destruct (assoc Nat.eqb counts c); lia. }
      rewrite Eq. split; [|split; [|split]].
      * intros t. rewrite counted_in_set, Hsnoc, Hm. cbn [andb]. destruct (Nat.eqb_spec c t) as [<-|]; auto. rewrite H1. lia.
      * destruct (Nat.ltb_spec cost (mcount u c + 1)) as [Hlt|Hge]; rewrite Hsnoc, Hm; cbn [andb].
        -- rewrite Nat.eqb_refl. reflexivity.
        -- destruct (Nat.eqb_spec c best) as [<-|]; lia.
      * destruct (cost <? mcount u c + 1); auto. eapply nth_error_In; eauto.
      * intros t. rewrite Hsnoc, Hm. cbn [andb]. specialize (H4 t). destruct (Nat.eqb_spec c t) as [<-|]; destruct (Nat.ltb_spec cost (mcount u c + 1)); lia.
    + eexists. split; [reflexivity|]. split; [|split; [|split]]; auto.
      * intros t. rewrite Hsnoc, Hm. cbn [andb]. rewrite H1. lia.
      * rewrite Hsnoc, Hm. cbn [andb]. lia.
      * intros t. rewrite Hsnoc, Hm. cbn [andb]. specialize (H4 t). lia.
  - rewrite E. cbn [bind fst snd]. exists best. subst cost. auto.
Qed.
End Majority.

Lemma mrow_covers d splits X y p t r : p_leaf p < 2 ^ d ->
  mrow splits X y (create_leaf (p_leaf p) d) p t r = true <-> nth_error y r = Some t /\ covers X (complete_leaves d) splits (KRow r) p.
Proof.
  intros Hl. unfold mrow. cbn [covers]. rewrite (complete_leaves_nth d _ Hl). split.
  - destruct (nth_error X r) as [x|] eqn:Ex; [|discriminate]. destruct (nth_error y r) as [c|]; [|discriminate].
    rewrite andb_true_iff, Nat.eqb_eq, followsb_iff. intros [H ->]. split; auto. exists x, (create_leaf (p_leaf p) d). auto.
  - intros [Ey (x & lf & Ex & El & H)]. rewrite Ex, Ey. injection El as <-. rewrite andb_true_iff, Nat.eqb_eq, followsb_iff. auto.
Qed.

Lemma finish_path_ok d splits X y l id nodes ks : l < 2 ^ d -> length y = length X -> 0 < length X -> Forall (fits splits) X ->
  length nodes = length ks -> Forall (fun k => k < length splits) ks ->
  exists p, finish_path splits X y (create_leaf l d) id nodes ks = Ok p /\
    p_leaf p = l /\ p_nodes p = nodes /\ p_splits p = ks /\ p_id p = id /\ p_initial p = false /\ majority_path d X y splits p.
Proof.
  intros Hl Hy Hx Hf Hn Hk. destruct y as [|y0 y'] eqn:Ey; [cbn in Hy; lia|]. rewrite <- Ey in *.
  assert (El : l_id (create_leaf l d) = l) by (unfold create_leaf; destruct (create_leaf_loop _ _ _ _); reflexivity).
  unfold finish_path. rewrite El. set (p0 := mkPath l nodes ks 0 id 0 false).
  destruct (majority_ok splits X y (create_leaf l d) p0 Hy Hf Hn Hk y0) as (t & E & Ht & Hmax); [rewrite Ey; reflexivity|].
  rewrite E. cbn [bind]. eexists. split; [reflexivity|]. cbn [p_leaf p_nodes p_splits p_id p_initial].
  repeat (split; [reflexivity|]).
  set (p := mkPath l nodes ks _ id (Z.of_nat t) false).
  assert (R : forall t', class_rows d X y splits p t' (filter (mrow splits X y (create_leaf l d) p0 t') (seq 0 (length X)))).
  { intros t'. split; [apply NoDup_filter, seq_NoDup|]. intros r. rewrite filter_In, in_seq.
    change (mrow splits X y (create_leaf l d) p0 t' r) with (mrow splits X y (create_leaf (p_leaf p) d) p t' r). rewrite mrow_covers by exact Hl.
    split; [tauto|]. intros H. split; auto. split; [lia|]. cbn. rewrite <- Hy. apply nth_error_Some. destruct H as [H _]. congruence. }
  exists t, (filter (mrow splits X y (create_leaf l d) p0 t) (seq 0 (length X))). split; [reflexivity|]. split; auto. split; auto. split; [reflexivity|].
  intros t' rs' [N I]. destruct (R t') as [N' I'].
  assert (P : Permutation rs' (filter (mrow splits X y (create_leaf l d) p0 t') (seq 0 (length X)))) by (apply NoDup_Permutation; auto; intros r; rewrite I, I'; tauto).
  rewrite (Permutation_length P). apply Hmax.
Qed.

(** * get_all_leaves_paths *)

Lemma leaf_path_ok nodes d splits X y l : l < 2 ^ d -> length y = length X -> 0 < length X -> Forall (fits splits) X ->
  has_last d (length splits) nodes ->
  exists p, leaf_path nodes d splits X y l = Ok (create_leaf l d, p) /\
    p_leaf p = l /\ p_id p = l /\ p_initial p = false /\ above d l (p_nodes p) /\ p_splits p = map (last_split nodes) (p_nodes p) /\
    tree_path d splits p /\ majority_path d X y splits p.
Proof.
  intros Hl Hy Hx Hf Hn. unfold leaf_path.
  destruct (fathers_nodes d l Hl) as (P & Len & A & R). rewrite (fathers_leaf d l Hl).
  assert (E : map_res (fun f : nat * bool => let* nd := lookup Nat.eqb nodes (fst f) in match en_last nd with Some k => Ok k | None => Err IndexError end) (fathers_of d l)
    = Ok (map (fun f => last_split nodes (fst f)) (fathers_of d l)) /\ Forall (fun k => k < length splits) (map (fun f => last_split nodes (fst f)) (fathers_of d l))).
  { assert (K : forall f, In f (fathers_of d l) -> (let* nd := lookup Nat.eqb nodes (fst f) in match en_last nd with Some k => Ok k | None => Err IndexError end)
        = Ok (last_split nodes (fst f)) /\ last_split nodes (fst f) < length splits).
    { intros f Hin. rewrite Forall_forall in R. destruct (Hn (fst f)) as (nd & k & Ea & Ek & Hk); [apply R; apply in_map; auto|].
      unfold last_split. rewrite Ea, Ek. unfold lookup. rewrite Ea. cbn [bind]. rewrite Ek. auto. }
    split; [apply map_res_ok; intros f Hin; apply K; auto|]. apply Forall_forall. intros k Hk. apply in_map_iff in Hk. destruct Hk as (f & <- & Hin). apply K. auto. }
  destruct E as [E Hks]. rewrite E. cbn [bind].
  destruct (finish_path_ok d splits X y l l (map fst (fathers_of d l)) (map (fun f => last_split nodes (fst f)) (fathers_of d l))) as (p & Ep & E1 & E2 & E3 & E4 & E5 & M); auto.
  { rewrite !map_length. reflexivity. }
  rewrite Ep. cbn [bind]. exists p. split; [reflexivity|]. split; auto. split; auto. split; auto. rewrite E2. split; auto. split.
  { rewrite E3, map_map. reflexivity. }
  split; auto. split; [rewrite E1; auto|]. rewrite E1, E2, E3. split; [auto|]. split; [rewrite map_length; auto|auto].
Qed.

Lemma get_all_leaves_paths_ok nodes d splits X y : length y = length X -> 0 < length X -> Forall (fits splits) X ->
  has_last d (length splits) nodes ->
  exists paths, get_all_leaves_paths nodes d splits X y = Ok (complete_leaves d, paths) /\ length paths = 2 ^ d /\
    forall l p, nth_error paths l = Some p ->
      p_leaf p = l /\ p_id p = l /\ p_initial p = false /\ above d l (p_nodes p) /\ p_splits p = map (last_split nodes) (p_nodes p) /\
      tree_path d splits p /\ majority_path d X y splits p.
Proof.
  intros Hy Hx Hf Hn. unfold get_all_leaves_paths.
  destruct (map_res_Forall2 (leaf_path nodes d splits X y) (fun l lp => fst lp = create_leaf l d /\
      (p_leaf (snd lp) = l /\ p_id (snd lp) = l /\ p_initial (snd lp) = false /\ above d l (p_nodes (snd lp)) /\ p_splits (snd lp) = map (last_split nodes) (p_nodes (snd lp)) /\
      tree_path d splits (snd lp) /\ majority_path d X y splits (snd lp))) (seq 0 (2 ^ d))) as (lps & E & F).
  { intros l Hl. apply in_seq in Hl. destruct (leaf_path_ok nodes d splits X y l ltac:(lia) Hy Hx Hf Hn) as (p & Ep & H). exists (create_leaf l d, p). auto. }
  rewrite E. cbn [bind]. exists (map snd lps).
  assert (L : length lps = 2 ^ d) by (rewrite <- (Forall2_length' _ _ _ F), seq_length; auto).
  split; [|split].
  - f_equal. f_equal. unfold complete_leaves. clear - F. induction F as [|l lp ls lps [H _] F IH]; cbn; congruence.
  - rewrite map_length. auto.
  - intros l p H. rewrite nth_error_map in H. destruct (nth_error lps l) as [lp|] eqn:El; [|discriminate]. injection H as <-.
    destruct (Forall2_nth_r _ _ _ _ _ F El) as (l' & Hl' & _ & R).
    assert (Hl : l < 2 ^ d) by (rewrite <- L; apply nth_error_Some; congruence).
    rewrite (nth_error_nth' _ 0) in Hl' by (rewrite seq_length; auto). rewrite seq_nth in Hl' by auto. injection Hl' as <-. exact R.
Qed.

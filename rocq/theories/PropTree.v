(** Claims about the tree geometry, paths and samples (col_gen_estimator/_dtree_classifier.py). *)
From Coq Require Import Sorted.
From Verif Require Import Base Lp TreeModel SpecTree TreeGeoProofs TreePathProofs.
Open Scope nat_scope.

(** * C33: leaf and path geometry of the complete tree *)

Theorem C33_create_leaf : forall d l, l < 2 ^ d ->
  let lf := create_leaf l d in
  l_id lf = l /\ NoDup (l_left lf ++ l_right lf) /\ length (l_left lf ++ l_right lf) = d /\
  (forall n, In n (l_left lf) <-> below (2 * n + 1) (leaf_pos d l)) /\
  (forall n, In n (l_right lf) <-> below (2 * n + 2) (leaf_pos d l)).
Proof.
  intros d l Hl. destruct (leaf_bits d l Hl) as (bits & H1 & H2 & H3). cbv zeta.
  subst l. rewrite <- H3. rewrite (create_leaf_bits d bits H1). cbn [l_id l_left l_right].
  split; [auto|]. split; [apply sides_NoDup|]. split; [rewrite sides_length; auto|]. split; intros n.
  - rewrite lefts_In. symmetry. apply (below_child_trail bits n true).
  - rewrite rights_In. symmetry. apply (below_child_trail bits n false).
Qed.
Print Assumptions C33_create_leaf.

(** The nodes of a path are the ancestors of its leaf, from the bottom to the root. *)
Theorem C33_set_leaf : forall d l p, l < 2 ^ d ->
  let q := set_leaf l d p in
  p_leaf q = l /\ length (p_nodes q) = d /\ StronglySorted gt (p_nodes q) /\
  (forall n, In n (p_nodes q) <-> below n (leaf_pos d l) /\ n <> leaf_pos d l) /\
  p_splits q = p_splits p /\ p_cost q = p_cost p /\ p_target q = p_target p.
Proof.
  intros d l p Hl. destruct (leaf_bits d l Hl) as (bits & H1 & H2 & H3). cbv zeta.
  unfold set_leaf. fold (leaf_pos d l). cbn [p_leaf p_nodes p_splits p_cost p_target].
  rewrite <- H3, set_leaf_loop_spec by lia. cbn [app].
  split; [auto|]. split; [rewrite rev_length, map_length, trail_length; auto|].
  split; [apply trail_sorted|]. split; [|auto].
  intros n. rewrite <- in_rev, below_trail, in_map_iff. split.
  - intros [[m b] [E H]]. simpl in E. subst m. eauto.
  - intros [b H]. exists (n, b). auto.
Qed.
Print Assumptions C33_set_leaf.

(** A leaf is determined by the nodes at which its paths turn left and right. *)
Theorem C33_signature : forall d l l', l < 2 ^ d -> l' < 2 ^ d ->
  (forall n, In n (l_left (create_leaf l d)) <-> In n (l_left (create_leaf l' d))) ->
  (forall n, In n (l_right (create_leaf l d)) <-> In n (l_right (create_leaf l' d))) -> l = l'.
Proof.
  intros d l l' Hl Hl'. destruct (leaf_bits d l Hl) as (b & H1 & H2 & _). destruct (leaf_bits d l' Hl') as (b' & H1' & H2' & _).
  subst l l'. rewrite (create_leaf_bits d b H1), (create_leaf_bits d b' H1'). simpl. intros HL HR.
  f_equal. apply trail_same; auto. congruence.
Qed.
Print Assumptions C33_signature.

Example C33_case : create_leaf 5 3 = mkLeaf 5 [2] [5; 0].
Proof. reflexivity. Qed.
Example C33_case_below : below (2 * 2 + 1) (leaf_pos 3 5) /\ ~ below (2 * 2 + 2) (leaf_pos 3 5).
Proof.
  split; [apply below_pos; exists [false]; reflexivity|].
  intros H. apply (below_child_trail [false; true; false] 2 false) in H. simpl in H.
  repeat destruct H as [H|H]; try discriminate; auto.
Qed.

(** * C34: every sample follows exactly one path of a tree *)

(** A path of the tree is satisfied by a sample iff the sample, walking down from the root, reaches the path's leaf. *)
Theorem C34_one_path : forall d splits tree x p, fits splits x -> tree_path d splits p -> agrees tree p ->
  row_satisfies_path x (create_leaf (p_leaf p) d) splits p = Ok (p_leaf p =? tree_leaf d splits tree x).
Proof.
  intros d splits tree x p Hf Hp Ha. destruct (tree_path_lengths d splits p Hp) as [H1 H2].
  rewrite row_satisfies_path_ok by (first [assumption|congruence|apply Hp]). f_equal.
  pose proof (follows_tree d splits p Hp tree (goes_left splits x) Ha) as H. fold (tree_leaf d splits tree x) in H.
  rewrite <- followsb_iff in H. destruct (followsb _ _ p), (Nat.eqb_spec (p_leaf p) (tree_leaf d splits tree x)); auto; exfalso.
  - apply n. symmetry. apply H. reflexivity.
  - destruct H as [_ H]. discriminate H. auto.
Qed.
Print Assumptions C34_one_path.

(** Hence of the 2^d paths of a tree, one per leaf, exactly one is satisfied. *)
Theorem C34_exactly_one : forall d splits tree x paths, fits splits x ->
  Permutation (map p_leaf paths) (seq 0 (2 ^ d)) -> Forall (tree_path d splits) paths -> Forall (agrees tree) paths ->
  exists p, In p paths /\ p_leaf p = tree_leaf d splits tree x /\
    forall q, In q paths -> exists b, row_satisfies_path x (create_leaf (p_leaf q) d) splits q = Ok b /\ (b = true <-> q = p).
Proof.
  intros d splits tree x paths Hf Hperm Hp Ha. rewrite Forall_forall in Hp, Ha.
  assert (Hin : In (tree_leaf d splits tree x) (map p_leaf paths)).
  { apply (Permutation_in _ (Permutation_sym Hperm)). apply in_seq. pose proof (leaf_reached_lt d (fun n => goes_left splits x (tree n))).
    unfold tree_leaf. lia. }
  apply in_map_iff in Hin. destruct Hin as [p [E Hin]]. exists p. split; auto. split; auto.
  intros q Hq. eexists. split; [apply C34_one_path; eauto|]. rewrite Nat.eqb_eq, <- E. split; [|congruence].
  intros El. assert (Hd : NoDup (map p_leaf paths)) by (eapply Permutation_NoDup; [apply Permutation_sym; eauto|apply seq_NoDup]).
  clear - El Hd Hin Hq. induction paths as [|a ps IH]; [contradiction|]. simpl in Hd. inversion Hd as [|? ? Hni Hd']; subst.
  destruct Hin as [->|Hin], Hq as [->|Hq]; auto; exfalso; apply Hni.
  - rewrite <- El. apply in_map. auto.
  - rewrite El. apply in_map. auto.
Qed.
Print Assumptions C34_exactly_one.

(** A tree of depth 2 with three splits on two features. *)
Definition ex_splits : list split :=
  [mkSplit 0 0 (1 # 2) false [0; 1] [2; 3] [] []; mkSplit 1 1 (1 # 2) false [0; 2] [1; 3] [] [];
   mkSplit 2 1 (3 # 2) false [0; 1; 2; 3] [] [] []].
Definition ex_X : list sample := [[0; 0]; [0; 1]; [1; 0]; [1; 1]]%Q.
Definition ex_tree (n : nat) : nat := n.
Definition ex_path (l : nat) (t : Z) (c : Q) : path :=
  let p := set_leaf l 2 (mkPath 0 [] [] c 0 t true) in
  mkPath l (p_nodes p) (map ex_tree (p_nodes p)) c 0 t true.
Definition ex_paths : list path := [ex_path 0 0 1; ex_path 1 1 1; ex_path 2 1 1; ex_path 3 0 0].

Example C34_case : fits ex_splits [1; 1]%Q /\ Permutation (map p_leaf ex_paths) (seq 0 (2 ^ 2)) /\
  Forall (tree_path 2 ex_splits) ex_paths /\ Forall (agrees ex_tree) ex_paths /\
  tree_leaf 2 ex_splits ex_tree [1; 1]%Q = 2.
Proof.
  split; [|split; [|split; [|split]]].
  - intros s Hs. repeat (destruct Hs as [<-|Hs]; [simpl; lia|]). contradiction.
  - reflexivity.
  - assert (E : forallb (fun p => forallb (fun k => k <? 3) (p_splits p) && (length (p_splits p) =? 2)
        && forallb (fun n => memb n (p_nodes p))
             (l_left (create_leaf (p_leaf p) 2) ++ l_right (create_leaf (p_leaf p) 2))) ex_paths = true) by reflexivity.
    rewrite forallb_forall in E. apply Forall_forall. intros p Hp. specialize (E p Hp).
    apply andb_true_iff in E. destruct E as [E1 E3]. apply andb_true_iff in E1. destruct E1 as [E1 E2].
    rewrite forallb_forall in E1, E3. assert (Hl : p_leaf p < 2 ^ 2).
    { simpl in Hp. repeat (destruct Hp as [<-|Hp]; [simpl; lia|]). contradiction. }
    split; [auto|]. split; [|split].
    + apply Permutation_sym. destruct (C33_create_leaf 2 (p_leaf p) Hl) as (_ & Hd & Hlen & _).
      apply NoDup_Permutation_bis; auto.
      * rewrite Hlen. simpl in Hp. repeat (destruct Hp as [<-|Hp]; [simpl; lia|]). contradiction.
      * intros n Hn. apply memb_In. apply E3. auto.
    + apply Nat.eqb_eq. auto.
    + apply Forall_forall. intros k Hk. apply Nat.ltb_lt. apply E1. auto.
  - apply Forall_forall. intros p Hp n k Hc. simpl in Hp.
    repeat (destruct Hp as [<-|Hp]; [simpl in Hc; repeat (destruct Hc as [Hc|Hc]; [injection Hc as <- <-; reflexivity|]); contradiction|]).
    contradiction.
  - reflexivity.
Qed.

(** * C35: set based row membership equals direct evaluation *)

Theorem C35_satisfied_rows : forall X splits lf p, rows_recorded X splits -> Forall (fits splits) X ->
  length (p_nodes p) = length (p_splits p) -> 0 < length (p_splits p) ->
  Forall (fun k => k < length splits) (p_splits p) ->
  exists rows, get_satisfied_rows p lf splits = Ok rows /\
    forall r, In r rows <-> exists x, nth_error X r = Some x /\ row_satisfies_path x lf splits p = Ok true.
Proof.
  intros X splits lf p Hrec Hfit Hl Hp Hr.
  destruct (satisfied_rows_spec X splits p lf Hrec Hl Hp Hr) as (rows & E & _ & H).
  exists rows. split; auto. intros r. rewrite H. rewrite Forall_forall in Hfit.
  split; intros (x & Hx & K); exists x; split; auto; apply row_satisfies_path_iff; auto; apply Hfit; eapply nth_error_In; eauto.
Qed.
Print Assumptions C35_satisfied_rows.

Example C35_case : rows_recorded ex_X ex_splits /\ Forall (fits ex_splits) ex_X /\
  get_satisfied_rows (ex_path 2 1 1) (create_leaf 2 2) ex_splits = Ok [2; 3].
Proof.
  split; [|split; [|reflexivity]].
  - intros s Hs. split; intros r; (split; [intros Hr|intros (x & Hx & E)]).
    all: try (repeat (destruct Hs as [<-|Hs]; [simpl in Hr; repeat (destruct Hr as [<-|Hr]; [simpl; eexists; split; reflexivity|]); contradiction|]); contradiction).
    all: destruct r as [|[|[|[|r]]]]; simpl in Hx; try (injection Hx as <-); try (destruct r; discriminate Hx).
    all: repeat (destruct Hs as [<-|Hs]; [simpl; try discriminate E; auto 10|]); contradiction.
  - apply Forall_forall. intros x Hx s Hs. assert (length x = 2).
    { simpl in Hx. repeat (destruct Hx as [<-|Hx]; [reflexivity|]). contradiction. }
    repeat (destruct Hs as [<-|Hs]; [simpl; lia|]). contradiction.
Qed.

(** * C50: path equality *)

(** A path as the classifier builds it: as many splits as nodes, no node twice. *)
Definition proper_path (p : path) : Prop := length (p_nodes p) = length (p_splits p) /\ NoDup (p_nodes p).
(** Same leaf, class, cost and same assignment of splits to nodes; the ids and the order do not matter. *)
Definition same_path (p q : path) : Prop :=
  p_leaf p = p_leaf q /\ p_target p = p_target q /\ (p_cost p == p_cost q)%Q /\
  (forall n k, In (n, k) (choices p) <-> In (n, k) (choices q)).

Theorem C50_is_same_as : forall p q, proper_path p -> proper_path q ->
  exists b, is_same_as p q = Ok b /\ (b = true <-> same_path p q).
Proof.
  intros p q [Hp Dp] [Hq Dq]. destruct (is_same_as_ok p q Hp Hq) as (b & E & Hb). exists b. split; auto. rewrite Hb.
  unfold same_path. split.
  - intros (H1 & H2 & H3 & H4 & H5). split; [auto|split; [auto|split; [auto|]]]. intros n k. split; [apply H5|]. intros H.
    assert (P : Permutation (choices p) (choices q)).
    { apply incl_same; auto. apply combine_NoDup_l; auto. rewrite !choices_length; auto. }
    apply (Permutation_in _ (Permutation_sym P)). auto.
  - intros (H1 & H2 & H3 & H4). repeat split; auto.
    + rewrite <- !choices_length by auto. apply Permutation_length. apply NoDup_Permutation.
      * apply combine_NoDup_l; auto.
      * apply combine_NoDup_l; auto.
      * intros [n k]. apply H4.
    + intros [n k]. apply H4.
Qed.
Print Assumptions C50_is_same_as.

Theorem C50_equivalence :
  (forall p, proper_path p -> is_same_as p p = Ok true) /\
  (forall p q, proper_path p -> proper_path q -> is_same_as p q = is_same_as q p) /\
  (forall p q r, proper_path p -> proper_path q -> proper_path r ->
     is_same_as p q = Ok true -> is_same_as q r = Ok true -> is_same_as p r = Ok true).
Proof.
  assert (S : forall p q, same_path p q -> same_path q p).
  { intros p q (H1 & H2 & H3 & H4). repeat split; auto; try (symmetry; auto); intros; apply H4; auto. }
  split; [|split].
  - intros p Hp. destruct (C50_is_same_as p p Hp Hp) as (b & -> & Hb). f_equal. apply Hb.
    repeat split; auto; reflexivity.
  - intros p q Hp Hq. destruct (C50_is_same_as p q Hp Hq) as (b & -> & Hb).
    destruct (C50_is_same_as q p Hq Hp) as (c & -> & Hc). f_equal.
    destruct b, c; auto; [destruct Hc as [_ Hc]|destruct Hb as [_ Hb]].
    + symmetry. apply Hc, S, Hb. reflexivity.
    + apply Hb, S, Hc. reflexivity.
  - intros p q r Hp Hq Hr. destruct (C50_is_same_as p q Hp Hq) as (b & -> & Hb).
    destruct (C50_is_same_as q r Hq Hr) as (c & -> & Hc). destruct (C50_is_same_as p r Hp Hr) as (e & -> & He).
    intros Eb Ec. injection Eb as ->. injection Ec as ->. f_equal. apply He.
    destruct (proj1 Hb eq_refl) as (A1 & A2 & A3 & A4). destruct (proj1 Hc eq_refl) as (B1 & B2 & B3 & B4).
    split; [congruence|]. split; [congruence|]. split; [rewrite A3; exact B3|].
    intros n k. rewrite A4. apply B4.
Qed.
Print Assumptions C50_equivalence.

Example C50_case :
  let p := mkPath 1 [1; 0] [7; 3] 5 2 1 true in
  let q := mkPath 1 [0; 1] [3; 7] 5 9 1 false in
  let r := mkPath 1 [0; 1] [7; 3] 5 9 1 false in
  proper_path p /\ proper_path q /\ proper_path r /\ is_same_as p q = Ok true /\ is_same_as p r = Ok false.
Proof.
  cbv zeta. repeat split; try (simpl; repeat constructor; simpl; intuition lia).
Qed.

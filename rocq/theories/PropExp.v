(** C54-C57: splits, nodes, initial paths and split reduction of the experiment script. *)
From Coq Require Import Sorted.
From Verif Require Import Base Lp LpProofs TreeModel SpecTree TreeGeoProofs TreePathProofs TreeLpBuild TreeInvProofs TreeFormProofs
  TreeBuildProofs SpecTreeRun TreeRunProofs TreeMasterProofs SpecTreeLp TreeLpProofs ExpModel SpecExp ExpSplitProofs ExpCartProofs
  ExpReduceProofs ExpPathProofs PropTreeMaster PropTreeLp.
Open Scope nat_scope.

(** C54: the splits of a tree: one per tested (feature, threshold), numbered in order. *)
Theorem C54_tree : forall c, cart_ok c -> exists ls d, get_is_leaves (ct_count c) (ct_left c) (ct_right c) = Ok ls /\
  get_all_splits (ct_count c) c ls = Ok d /\ good_registry d /\
  forall f t, has_key d f t <-> exists i t', cart_test c i f t' /\ (t' == t)%Q.
Proof.
  intros c H. destruct (is_leaves_ok c H) as (ls & E & _). destruct (get_all_splits_spec c ls H E) as (d & E1 & H1 & H2). eauto 8.
Qed.
Print Assumptions C54_tree.

(** Merging never fails, keeps all splits with their numbers, and adds one for each new test. *)
Theorem C54_history : forall cs, Forall cart_ok cs -> exists d, merged_trees cs d.
Proof.
  induction cs as [|c cs IH] using rev_ind; intros H.
  - exists []. constructor.
  - apply Forall_app in H. destruct H as [H1 H2]. inversion H2 as [|? ? Hc _]; subst. destruct (IH H1) as [d Hd].
    destruct (C54_tree c Hc) as (ls & e & E1 & E2 & _). eexists. eapply mt_next; eauto.
Qed.
Print Assumptions C54_history.
Lemma merged_snoc cs c d : merged_trees (cs ++ [c]) d -> exists ls e d0, merged_trees cs d0 /\
  get_is_leaves (ct_count c) (ct_left c) (ct_right c) = Ok ls /\ get_all_splits (ct_count c) c ls = Ok e /\ d = merge_all_splits d0 e.
Proof.
  intros H. inversion H as [E|cs' d' c' ls e H1 H2 H3 E1 E2]; [destruct cs; discriminate|]. apply app_inj_tail in E1. destruct E1 as [-> ->]. eauto 8.
Qed.
Theorem C54_merge : forall cs cs' d d', Forall cart_ok (cs ++ cs') -> merged_trees cs d -> merged_trees (cs ++ cs') d' ->
  good_registry d' /\ (exists new, d' = d ++ new) /\ get_splits_list d' = Ok (map snd d') /\
  forall f t, has_key d' f t <-> exists c i t', In c (cs ++ cs') /\ cart_test c i f t' /\ (t' == t)%Q.
Proof.
  assert (K : forall cs d, Forall cart_ok cs -> merged_trees cs d -> good_registry d /\
    forall f t, has_key d f t <-> exists c i t', In c cs /\ cart_test c i f t' /\ (t' == t)%Q).
  { induction cs as [|c cs IH] using rev_ind; intros d Hc Hd.
    - inversion Hd as [E|? ? ? ? ? ? ? ? E]; [|destruct cs; discriminate]. split; [apply good_nil|]. intros f t. split.
      + intros (t' & s & [] & _).
      + intros (c & i & t' & [] & _).
    - apply Forall_app in Hc. destruct Hc as [H1 H2]. inversion H2 as [|? ? Hc _]; subst.
      destruct (merged_snoc _ _ _ Hd) as (ls & e & d0 & Hd0 & E1 & E2 & ->). destruct (IH d0 H1 Hd0) as [G0 K0].
      destruct (get_all_splits_spec c ls Hc E1) as (e' & E2' & _ & Ke). rewrite E2 in E2'. injection E2' as <-.
      destruct (merge_spec e d0 G0) as (G & _ & K). split; auto. intros f t. rewrite K, K0, Ke. split.
      + intros [(c0 & i & t' & Hin & H)|(i & t' & H)].
        * exists c0, i, t'. rewrite in_app_iff. auto.
        * exists c, i, t'. rewrite in_app_iff. cbn. auto.
      + intros (c0 & i & t' & Hin & H). apply in_app_iff in Hin. destruct Hin as [Hin|[<-|[]]]; [left|right]; eauto. }
  intros cs cs' d d' Hc Hd Hd'. destruct (K _ _ Hc Hd') as [G Ks]. split; auto. split; [|split; [apply splits_list_ok; auto|exact Ks]].
  clear G Ks. revert d' Hc Hd'. induction cs' as [|c cs' IH] using rev_ind; intros d' Hc Hd'.
  - rewrite app_nil_r in *. exists []. rewrite app_nil_r.
    assert (F : forall cs d, merged_trees cs d -> forall d', merged_trees cs d' -> d = d').
    { clear. induction 1 as [|cs d c ls e H IH E1 E2]; intros d' H'.
      - inversion H' as [E|? ? ? ? ? ? ? ? E]; [auto|]. destruct cs; discriminate.
      - destruct (merged_snoc _ _ _ H') as (ls' & e' & d0 & H0 & E1' & E2' & ->). rewrite E1 in E1'. injection E1' as <-. rewrite E2 in E2'.
        injection E2' as <-. rewrite (IH _ H0). reflexivity. }
    symmetry. eapply F; eauto.
  - rewrite app_assoc in *. destruct (merged_snoc _ _ _ Hd') as (ls & e & d0 & Hd0 & E1 & E2 & ->).
    apply Forall_app in Hc. destruct Hc as [Hc _]. destruct (IH d0 Hc Hd0) as [new ->].
    destruct (K _ _ Hc Hd0) as [G0 _]. destruct (merge_spec e _ G0) as (_ & (new' & ->) & _). exists (new ++ new'). rewrite app_assoc. reflexivity.
Qed.
Print Assumptions C54_merge.

(** C57: the nodes of a CART tree get the numbers of their positions, with the registered split of their test ... *)
Theorem C57_numbering : forall c d ls, cart_ok c -> good_registry d -> (forall i f t, cart_test c i f t -> has_key d f t) ->
  get_is_leaves (ct_count c) (ct_left c) (ct_right c) = Ok ls ->
  exists ns, get_all_nodes c (ct_count c) ls d = Ok ns /\ NoDup (map fst ns) /\
    forall h nd, assoc Nat.eqb ns h = Some nd <-> exists i, inner c i /\ positioned c i h /\ node_for c d i h nd.
Proof. exact get_all_nodes_spec. Qed.
Print Assumptions C57_numbering.
(** ... all different positions, ... *)
Theorem C57_positions : forall c i, cart_ok c -> i < ct_count c ->
  exists h, positioned c i h /\ (forall h', positioned c i h' -> h' = h) /\ (forall i', positioned c i' h -> i' = i).
Proof.
  intros c i H Hi. destruct (positioned_total c i H Hi) as [h Hh]. exists h. split; auto. split.
  - intros h' H'. eapply positioned_unique; eauto.
  - intros i' H'. eapply positioned_inj; eauto.
Qed.
Print Assumptions C57_positions.
(** ... and every sample that is at CART node [i] after [k] tests is at the position of [i] after [k] steps in the numbered tree. *)
Theorem C57_descent : forall c d ls ns x k i, cart_ok c -> good_registry d -> (forall i f t, cart_test c i f t -> has_key d f t) ->
  get_is_leaves (ct_count c) (ct_left c) (ct_right c) = Ok ls -> get_all_nodes c (ct_count c) ls d = Ok ns -> descends c x k i ->
  positioned c i (route k (fun n => goes_left (map snd d) x (last_split ns n)) 0).
Proof.
  intros c d ls ns x k i H G K E E1 D. destruct (get_all_nodes_spec c d ls H G K E) as (ns' & E1' & _ & S). rewrite E1 in E1'. injection E1' as <-.
  eapply descends_route; eauto.
Qed.
Print Assumptions C57_descent.

(** C56: every node keeps its [q] most frequent candidates (the root: [q_root]); a split is marked removed iff no node keeps it. *)
Theorem C56_reduce : forall nodes splits q_root q_node, Forall (fun nd => counts_ok nd /\ en_cands nd <> []) nodes ->
  exists nodes' splits', reduce_splits nodes splits q_root q_node = Ok (nodes', splits') /\
    Forall2 (fun nd nd' => keeps_best (if en_id nd =? 0 then q_root else q_node) nd nd') nodes nodes' /\
    Forall2 (fun s s' => s' = set_removed (s_removed s') s /\
                         (s_removed s' = false <-> exists nd', In nd' nodes' /\ In (s_id s) (en_cands nd'))) splits splits'.
Proof.
  intros nodes splits qr qn H. destruct (reduce_splits_spec nodes splits qr qn H) as (nodes' & splits' & E & K & ->). exists nodes'. eexists.
  split; [exact E|]. split; [exact K|]. clear. induction splits as [|s splits IH]; cbn [map]; constructor; auto. cbn [set_removed s_removed]. split; auto.
  rewrite negb_false_iff, memb_In, in_flat_map. reflexivity.
Qed.
Print Assumptions C56_reduce.
(** With quota 0 a node loses all candidates; a node without candidates makes the reduction fail. *)
Theorem C56_empty : forall nodes splits q_root q_node,
  (forall nodes' splits', Forall (fun nd => counts_ok nd /\ en_cands nd <> []) nodes -> reduce_splits nodes splits q_root q_node = Ok (nodes', splits') ->
     q_node = 0 -> Forall (fun nd' => en_id nd' = 0 \/ en_cands nd' = []) nodes') /\
  (forall nd, In nd nodes -> en_cands nd = [] -> reduce_splits nodes splits q_root q_node = Err ValueError).
Proof.
  intros nodes splits qr qn. split; [|intros nd; apply reduce_splits_empty].
  intros nodes' splits' H E ->. destruct (C56_reduce nodes splits qr 0 H) as (n' & s' & E' & K & _). rewrite E in E'. injection E' as <- <-.
  apply Forall_forall. intros nd' Hin. destruct (Forall2_In_r _ _ _ _ K Hin) as (nd & _ & B).
  destruct (Nat.eqb_spec (en_id nd) 0) as [E0|E0]; [left; rewrite (kb_id _ _ _ B); auto|right].
  pose proof (kb_length _ _ _ B) as L. apply length_zero_iff_nil. rewrite L. reflexivity.
Qed.
Print Assumptions C56_empty.

(** C55: one path per leaf, using the last split of each node above it; its target is a most frequent class of the training
    rows that follow it and its cost their number. *)
Theorem C55_paths : forall nodes d splits X y, length y = length X -> 0 < length X -> Forall (fits splits) X ->
  has_last d (length splits) nodes ->
  exists paths, get_all_leaves_paths nodes d splits X y = Ok (complete_leaves d, paths) /\ length paths = 2 ^ d /\
    forall l p, nth_error paths l = Some p ->
      p_leaf p = l /\ p_id p = l /\ above d l (p_nodes p) /\ p_splits p = map (last_split nodes) (p_nodes p) /\
      tree_path d splits p /\ majority_path d X y splits p.
Proof.
  intros nodes d splits X y H1 H2 H3 H4. destruct (get_all_leaves_paths_ok nodes d splits X y H1 H2 H3 H4) as (paths & E & L & H).
  exists paths. split; auto. split; auto. intros l p Hl. destruct (H l p Hl) as (A & B & _ & C). tauto.
Qed.
Print Assumptions C55_paths.

(** If the initial paths contain a tree over the candidate splits, the master problem has an integer solution with the value
    of this tree at the beginning and after every sequence of calls. *)
Lemma copies sel paths0 paths : incl sel paths0 -> Forall2 (fun p q : path => q = with_id p (p_id q)) paths0 paths ->
  exists sel', Forall2 (fun p q => q = with_id p (p_id q)) sel sel' /\ incl sel' paths.
Proof.
  intros Hi F. induction sel as [|p sel IH].
  - exists []. split; [constructor|intros ? []].
  - destruct IH as (sel' & F' & I'); [intros q Hq; apply Hi; right; auto|]. destruct (Forall2_In_l _ _ _ p F (Hi p (or_introl eq_refl))) as (q & Hq & E).
    exists (q :: sel'). split; [constructor; auto|]. intros q' [<-|H]; auto.
Qed.
Lemma copies_fields {B} (f : path -> B) sel sel' : (forall p i, f (with_id p i) = f p) -> Forall2 (fun p q => q = with_id p (p_id q)) sel sel' ->
  map f sel' = map f sel.
Proof. intros Hf F. induction F as [|p q l m E F IH]; cbn; auto. rewrite IH. f_equal. rewrite E. apply Hf. Qed.
Lemma copies_Forall (P : path -> Prop) sel sel' : (forall p i, P p -> P (with_id p i)) -> Forall2 (fun p q => q = with_id p (p_id q)) sel sel' ->
  Forall P sel -> Forall P sel'.
Proof. intros Hf F. induction F as [|p q l m E F IH]; intros H; auto. inversion H; subst. constructor; auto. rewrite E. apply Hf; auto. Qed.

Lemma tree_in_master : forall u ops cuts s tree sel, valid_setup u -> after u ops cuts s -> incl sel (su_paths u) ->
  Forall (tree_path (su_depth u) (su_splits u)) sel -> forms_tree u tree sel ->
  exists x, ip_feasible (tm_lp s) x /\ (objective_value (tm_lp s) x == qsum p_cost sel)%Q /\
    forall q, In q (tm_paths s) -> (x (p_id q) == 0)%Q \/ exists p, In p sel /\ q = with_id p (p_id q).
Proof.
  intros u ops cuts s tree sel V A Hi Ht (F1 & F2 & F3). destruct (C36_formulation u ops cuts s V A) as (rws & kinds & cv & rows & F & P & _).
  destruct (copies sel _ _ (incl_appl _ Hi) P) as (sel' & C & I').
  destruct (C37_all_trees u ops cuts s tree sel' V A I') as (x & Hx & H1 & H0).
  { eapply copies_Forall; [|exact C|exact Ht]. intros p i H. exact H. }
  { split; [exact F1|]. split.
    - rewrite (copies_fields p_leaf sel sel'); auto.
    - eapply copies_Forall; [|exact C|exact F3]. intros p i H. exact H. }
  assert (Dec : forall p q : path, {p = q} + {p <> q}).
  { repeat decide equality. }
  exists x. split; auto. split.
  2: { intros q Hq. destruct (in_dec Dec q sel') as [h|h]; [right|left; auto]. destruct (Forall2_In_r _ _ _ q C h) as (p & Hp & E). eauto. }
  rewrite (form_objective _ _ _ _ _ _ _ _ _ _ F).
  assert (N : NoDup (tm_paths s)) by (apply (NoDup_map_inv' p_id), (fm_path_ids _ _ _ _ _ _ _ _ _ _ F)).
  assert (N' : NoDup sel').
  { apply (NoDup_map_inv' p_leaf). rewrite (copies_fields p_leaf sel sel'); auto. eapply Permutation_NoDup; [apply Permutation_sym, F2|apply seq_NoDup]. }
  set (inb := fun p => if in_dec Dec p sel' then true else false).
  assert (P' : Permutation (filter inb (tm_paths s)) sel').
  { apply NoDup_Permutation; auto using NoDup_filter. intros p. rewrite filter_In. unfold inb. destruct (in_dec Dec p sel') as [h|h]; split; auto; try tauto.
    intros [_ ?]; discriminate. }
  assert (E : (qsum p_cost sel == qsum p_cost sel')%Q).
  { clear - C. induction C as [|p q l m E F IH]; [reflexivity|]. rewrite !qsum_cons, IH, E. reflexivity. }
  rewrite E, <- (qsum_perm _ _ _ P'), qsum_filter. apply qsum_ext. intros p Hin. unfold inb. destruct (in_dec Dec p sel') as [h|h].
  - rewrite (H1 p h). lra.
  - rewrite (H0 p Hin h). lra.
Qed.

Theorem C55_feasible : forall u ops cuts s tree sel, valid_setup u -> after u ops cuts s -> incl sel (su_paths u) ->
  Forall (tree_path (su_depth u) (su_splits u)) sel -> forms_tree u tree sel ->
  exists x, ip_feasible (tm_lp s) x /\ (objective_value (tm_lp s) x == qsum p_cost sel)%Q.
Proof.
  intros u ops cuts s tree sel V A Hi Ht Hf. destruct (tree_in_master u ops cuts s tree sel V A Hi Ht Hf) as (x & H1 & H2 & _). eauto.
Qed.
Print Assumptions C55_feasible.

(** The initial paths of the script are such a tree if the last splits are candidates. *)
Theorem C55_initial : forall nodes splits y paths u ops cuts s,
  get_all_leaves_paths nodes (su_depth u) splits (su_X u) y = Ok (complete_leaves (su_depth u), paths) ->
  length y = length (su_X u) -> Forall (fits splits) (su_X u) -> has_last (su_depth u) (length splits) nodes ->
  valid_setup u -> length (su_splits u) = length splits -> incl paths (su_paths u) ->
  (forall i nd, nth_error (su_nodes u) i = Some nd -> In (last_split nodes i) (n_cands nd)) -> after u ops cuts s ->
  exists x, ip_feasible (tm_lp s) x /\ (objective_value (tm_lp s) x == qsum p_cost paths)%Q.
Proof.
  intros nodes splits y paths u ops cuts s E Hy Hf Hl V Hn Hi Hc A.
  assert (Hx : 0 < length (su_X u)) by (destruct V as (W & _); apply (wt_rows _ _ _ _ W)).
  destruct (get_all_leaves_paths_ok nodes _ splits (su_X u) y Hy Hx Hf Hl) as (paths' & E' & L & H). rewrite E in E'. injection E' as <-.
  assert (Hall : forall p, In p paths -> tree_path (su_depth u) splits p /\ p_splits p = map (last_split nodes) (p_nodes p)).
  { intros p Hp. apply In_nth_error in Hp. destruct Hp as [l Hp]. destruct (H l p Hp) as (_ & _ & _ & _ & H1 & H2 & _). auto. }
  apply (C55_feasible u ops cuts s (last_split nodes) paths V A Hi).
  - apply Forall_forall. intros p Hp. unfold tree_path. rewrite Hn. apply Hall. auto.
  - split; [|split].
    + intros n nd _ Hnd. eauto.
    + assert (Eq : map p_leaf paths = seq 0 (2 ^ su_depth u)); [|rewrite Eq; reflexivity].
      rewrite <- L. clear - H.
      assert (G : forall i, (forall l p, nth_error paths l = Some p -> p_leaf p = i + l) -> map p_leaf paths = seq i (length paths)).
      { clear. induction paths as [|p ps IH]; intros i H; cbn; auto. rewrite (H 0 p eq_refl), Nat.add_0_r. f_equal. apply IH.
        intros l q Hq. rewrite (H (S l) q Hq). lia. }
      apply G. intros l p Hp. apply (H l p Hp).
    + apply Forall_forall. intros p Hp n k Hin. destruct (Hall p Hp) as [_ Es]. unfold choices in Hin. rewrite Es in Hin.
      clear - Hin. induction (p_nodes p) as [|m ms IH]; [destruct Hin|]. cbn in Hin. destruct Hin as [E|Hin]; [congruence|auto].
Qed.
Print Assumptions C55_initial.

(** Two CART trees. *)
Definition ex_cart1 : cart := mkCart [1; 2; -1; -1; -1]%Z [4; 3; -1; -1; -1]%Z [0; 0; 0; 0; 0] [3 # 2; 1 # 2; -2; -2; -2]%Q.
Definition ex_cart2 : cart := mkCart [1; -1; -1]%Z [2; -1; -1]%Z [0; 0; 0] [2 # 4; -2; -2]%Q.
Lemma ex_cart1_child i side j : cart_child ex_cart1 i side j <-> (i, side, j) = (0, true, 1) \/ (i, side, j) = (0, false, 4) \/
  (i, side, j) = (1, true, 2) \/ (i, side, j) = (1, false, 3).
Proof.
  split.
  - intros [(a & b & Ha & Hb & Hab) H]. destruct i as [|[|[|[|[|i]]]]]; cbn in Ha, Hb, H;
      try (injection Ha as <-; injection Hb as <-; try congruence; destruct side; cbn in H; injection H as H; assert (Hj : j = Z.to_nat (Z.of_nat j)) by lia;
           rewrite <- H in Hj; cbn in Hj; subst j; tauto).
    destruct i; discriminate.
  - unfold cart_child, inner. intros [E|[E|[E|E]]]; injection E as -> -> ->; cbn; (split; [do 2 eexists; split; [reflexivity|split; [reflexivity|discriminate]]|reflexivity]).
Qed.
Lemma ex_cart2_child i side j : cart_child ex_cart2 i side j <-> (i, side, j) = (0, true, 1) \/ (i, side, j) = (0, false, 2).
Proof.
  split.
  - intros [(a & b & Ha & Hb & Hab) H]. destruct i as [|[|[|i]]]; cbn in Ha, Hb, H;
      try (injection Ha as <-; injection Hb as <-; try congruence; destruct side; cbn in H; injection H as H; assert (Hj : j = Z.to_nat (Z.of_nat j)) by lia;
           rewrite <- H in Hj; cbn in Hj; subst j; tauto).
    destruct i; discriminate.
  - unfold cart_child, inner. intros [E|E]; injection E as -> -> ->; cbn; (split; [do 2 eexists; split; [reflexivity|split; [reflexivity|discriminate]]|reflexivity]).
Qed.
Lemma ex_cart1_inner i : inner ex_cart1 i -> i = 0 \/ i = 1.
Proof.
  intros (a & b & Ha & Hb & Hab). destruct i as [|[|[|[|[|i]]]]]; cbn in Ha, Hb; auto; try (injection Ha as <-; injection Hb as <-; congruence).
  destruct i; discriminate.
Qed.
Lemma ex_cart2_inner i : inner ex_cart2 i -> i = 0.
Proof.
  intros (a & b & Ha & Hb & Hab). destruct i as [|[|[|i]]]; cbn in Ha, Hb; auto; try (injection Ha as <-; injection Hb as <-; congruence).
  destruct i; discriminate.
Qed.
Ltac by_triples := repeat match goal with
  | H : _ \/ _ |- _ => destruct H
  | H : (_, _, _) = (_, _, _) |- _ => injection H as ? ? ?; subst
  end.
Lemma ex_cart1_ok : cart_ok ex_cart1.
Proof.
  constructor; try (cbn; auto; lia).
  - intros i side H. destruct (ex_cart1_inner i H) as [-> | ->], side;
      [exists 1|exists 4|exists 2|exists 3]; apply ex_cart1_child; tauto.
  - intros i side j H. apply ex_cart1_child in H. cbn. by_triples; lia.
  - intros j H1 H2. cbn in H2. assert (H : j = 1 \/ j = 2 \/ j = 3 \/ j = 4) by lia.
    destruct H as [->|[->|[->| ->]]]; [exists 0, true|exists 1, true|exists 1, false|exists 0, false]; apply ex_cart1_child; tauto.
  - intros i i' side side' j H H'. apply ex_cart1_child in H. apply ex_cart1_child in H'. by_triples; try discriminate;
      match goal with E : _ = _ |- _ => inversion E end; auto.
Qed.
Lemma ex_cart2_ok : cart_ok ex_cart2.
Proof.
  constructor; try (cbn; auto; lia).
  - intros i side H. rewrite (ex_cart2_inner i H). destruct side; [exists 1|exists 2]; apply ex_cart2_child; tauto.
  - intros i side j H. apply ex_cart2_child in H. cbn. by_triples; lia.
  - intros j H1 H2. cbn in H2. assert (H : j = 1 \/ j = 2) by lia.
    destruct H as [->| ->]; [exists 0, true|exists 0, false]; apply ex_cart2_child; tauto.
  - intros i i' side side' j H H'. apply ex_cart2_child in H. apply ex_cart2_child in H'. by_triples; try discriminate;
      match goal with E : _ = _ |- _ => inversion E end; auto.
Qed.
(** Merged: the second tree adds no split (1/2 = 2/4), the first in second place adds one with number 1. *)
Definition ex_registry : registry := [((0%nat, 2 # 4)%Q, new_split 0 0 (2 # 4)); ((0%nat, 3 # 2)%Q, new_split 1 0 (3 # 2))].
Example C54_case : Forall cart_ok [ex_cart2; ex_cart1] /\ merged_trees [ex_cart2; ex_cart1] ex_registry.
Proof.
  split; [exact (Forall_cons _ ex_cart2_ok (Forall_cons _ ex_cart1_ok (Forall_nil _)))|].
  change [ex_cart2; ex_cart1] with (([] ++ [ex_cart2]) ++ [ex_cart1]).
  change ex_registry with (merge_all_splits (merge_all_splits [] [((0%nat, 2 # 4)%Q, new_split 0 0 (2 # 4))])
    [((0%nat, 3 # 2)%Q, new_split 0 0 (3 # 2)); ((0%nat, 1 # 2)%Q, new_split 1 0 (1 # 2))]).
  apply (mt_next _ _ _ [false; false; true; true; true]); [|reflexivity|reflexivity].
  apply (mt_next _ _ _ [false; true; true]); [apply mt_none|reflexivity|reflexivity].
Qed.
(** Sample [1]: left at the root, then right. *)
Example C57_case : cart_ok ex_cart1 /\ good_registry ex_registry /\ (forall i f t, cart_test ex_cart1 i f t -> has_key ex_registry f t) /\
  descends ex_cart1 [1%Q] 2 3 /\
  get_all_nodes ex_cart1 5 [false; false; true; true; true] ex_registry = Ok [(0, mkEn 0 [1] [1] (Some 1)); (1, mkEn 1 [0] [1] (Some 0))].
Proof.
  split; [exact ex_cart1_ok|]. destruct C54_case as [Hc Hm].
  destruct (C54_merge [ex_cart2; ex_cart1] [] _ _ Hc Hm Hm) as (G & _ & _ & K). split; [exact G|]. split; [|split].
  - intros i f t H. apply K. exists ex_cart1, i, t. cbn. split; auto. split; auto. reflexivity.
  - eapply ds_step; [eapply ds_step; [apply ds_root| |]| |].
    + split; [|split; reflexivity]. do 2 eexists. split; [reflexivity|split; [reflexivity|discriminate]].
    + apply ex_cart1_child. left. reflexivity.
    + split; [|split; reflexivity]. do 2 eexists. split; [reflexivity|split; [reflexivity|discriminate]].
    + apply ex_cart1_child. right. right. right. reflexivity.
  - reflexivity.
Qed.
(** Three candidates with counts 2, 5, 2: the root keeps splits 1 and 2, split 0 is marked removed. *)
Example C56_case : let nd := mkEn 0 [0; 1; 2] [2; 5; 2] (Some 0) in
  counts_ok nd /\ reduce_splits [nd] [new_split 0 0 0; new_split 1 0 1; new_split 2 0 (2 # 1)] 2 0 =
    Ok ([mkEn 0 [1; 2] [5; 2] (Some 0)], [set_removed true (new_split 0 0 0); new_split 1 0 1; new_split 2 0 (2 # 1)]).
Proof. cbv zeta. split; [|reflexivity]. split; [reflexivity|]. repeat constructor; cbn; intuition lia. Qed.
(** Depth 1, split 0 at the root, rows 0, 1, 2 with classes 0, 1, 0. *)
Definition ex_ndict : ndict := [(0, mkEn 0 [0; 1] [1; 1] (Some 0))].
Definition ex_paths : list path := [mkPath 0 [0] [0] 1 0 0 false; mkPath 1 [0] [0] 1 1 1 false].
Definition ex_exp_setup : setup := mkSetup 1 (su_X ex1_setup) (su_y ex1_setup) ex1_nodes ex1_splits ex_paths false true 3 None.
Example C55_case : get_all_leaves_paths ex_ndict 1 ex1_splits (su_X ex1_setup) (su_y ex1_setup) = Ok (complete_leaves 1, ex_paths) /\
  has_last 1 2 ex_ndict /\ valid_setup ex_exp_setup /\
  (forall i nd, nth_error (su_nodes ex_exp_setup) i = Some nd -> In (last_split ex_ndict i) (n_cands nd)).
Proof.
  split; [vm_compute; reflexivity|]. split; [|split].
  - intros i Hi. cbn in Hi. assert (i = 0) by lia. subst i. do 2 eexists. split; [reflexivity|]. split; [reflexivity|lia].
  - destruct ex1_valid as (W & _ & _). split; [exact W|]. split; [|exact I]. repeat constructor.
  - intros [|[|i]] nd H; try discriminate. injection H as <-. cbn. auto.
Qed.

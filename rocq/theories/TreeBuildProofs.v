(** generate_mp builds the path formulation: the parts of the construction. *)
From Verif Require Import Base Lp LpProofs TreeModel SpecTree TreeGeoProofs TreePathProofs TreeLpBuild.
Open Scope nat_scope.

(** * Loops and dictionaries *)

Lemma for_each_steps {A S} (l : list A) (body : A -> S -> res S) (P : list A -> S -> Prop) s :
  P [] s ->
  (forall u a v s, l = u ++ a :: v -> P u s -> exists s', body a s = Ok s' /\ P (u ++ [a]) s') ->
  exists s', for_each l body s = Ok s' /\ P l s'.
Proof.
  intros H0 Hs.
  assert (G : forall v u s, l = u ++ v -> P u s -> exists s', for_each v body s = Ok s' /\ P l s').
  { induction v as [|a v IH]; intros u s1 E HP; simpl.
    - rewrite app_nil_r in E. subst. eauto.
    - destruct (Hs u a v s1 E HP) as (s2 & E2 & H2). rewrite E2. simpl. apply (IH (u ++ [a])); auto.
      rewrite <- app_assoc. exact E. }
  apply (G l [] s); auto.
Qed.

Lemma map_res_Forall2 {A B} (f : A -> res B) (R : A -> B -> Prop) l :
  (forall a, In a l -> exists b, f a = Ok b /\ R a b) -> exists bs, map_res f l = Ok bs /\ Forall2 R l bs.
Proof.
  induction l as [|a l IH]; simpl; intros H; [exists []; auto|].
  destruct (H a) as (b & E & Hb); auto. destruct IH as (bs & E' & Hbs); auto.
  exists (b :: bs). rewrite E. simpl. rewrite E'. simpl. auto.
Qed.

Section Assoc.
Context {K A : Type} (eqb : K -> K -> bool).
Hypothesis eqb_iff : forall a b, eqb a b = true <-> a = b.

Lemma assoc_In (d : list (K * A)) k a : assoc eqb d k = Some a -> In (k, a) d.
Proof.
  induction d as [|[k' a'] d IH]; simpl; [discriminate|]. destruct (eqb k' k) eqn:E.
  - apply eqb_iff in E. subst. intros H. injection H as ->. auto.
  - auto.
Qed.
Lemma assoc_None (d : list (K * A)) k : assoc eqb d k = None <-> ~ In k (map fst d).
Proof.
  induction d as [|[k' a'] d IH]; simpl; [tauto|]. destruct (eqb k' k) eqn:E.
  - apply eqb_iff in E. subst. split; [discriminate|tauto].
  - rewrite IH. assert (k' <> k) by (intros ->; assert (eqb k k = true) by (apply eqb_iff; auto); congruence). tauto.
Qed.
Lemma assoc_set_new (d : list (K * A)) k a : ~ In k (map fst d) -> assoc_set eqb d k a = d ++ [(k, a)].
Proof.
  induction d as [|[k' a'] d IH]; simpl; intros H; auto. destruct (eqb k' k) eqn:E.
  - apply eqb_iff in E. subst. tauto.
  - rewrite IH by tauto. reflexivity.
Qed.
Lemma assoc_set_same (d : list (K * A)) k a : assoc eqb d k = Some a -> assoc_set eqb d k a = d.
Proof.
  induction d as [|[k' a'] d IH]; simpl; [discriminate|]. destruct (eqb k' k) eqn:E.
  - intros H. injection H as ->. reflexivity.
  - intros H. rewrite IH; auto.
Qed.
Lemma assoc_app (d : list (K * A)) k' a k :
  assoc eqb (d ++ [(k', a)]) k = match assoc eqb d k with Some b => Some b | None => if eqb k' k then Some a else None end.
Proof.
  induction d as [|[k1 a1] d IH]; simpl; auto. destruct (eqb k1 k); auto.
Qed.
Lemma assoc_get (d : list (K * A)) k a : NoDup (map fst d) -> In (k, a) d -> assoc eqb d k = Some a.
Proof.
  induction d as [|[k' a'] d IH]; simpl; intros Hd H; [contradiction|]. inversion Hd as [|? ? Hn Hd']; subst.
  destruct H as [E|H].
  - injection E as -> ->. assert (E : eqb k k = true) by (apply eqb_iff; auto). rewrite E. reflexivity.
  - destruct (eqb k' k) eqn:E; auto. apply eqb_iff in E. subst. exfalso. apply Hn.
    change k with (fst (k, a)). apply in_map. auto.
Qed.
Lemma lookup_ok (d : list (K * A)) k a : lookup eqb d k = Ok a <-> assoc eqb d k = Some a.
Proof. unfold lookup. destruct (assoc eqb d k); split; congruence. Qed.
End Assoc.

Lemma key2_iff a b : key2_eqb a b = true <-> a = b.
Proof.
  unfold key2_eqb. destruct a, b. simpl. rewrite andb_true_iff, !Nat.eqb_eq. split; [intros [-> ->]; auto|intros E; inversion E; auto].
Qed.
Lemma key3_iff a b : key3_eqb a b = true <-> a = b.
Proof.
  unfold key3_eqb. destruct a as [k x], b as [k' x']. simpl. rewrite andb_true_iff, key2_iff, Nat.eqb_eq.
  split; [intros [-> ->]; auto|intros E; inversion E; auto].
Qed.
Lemma nat_iff a b : (a =? b) = true <-> a = b.
Proof. apply Nat.eqb_eq. Qed.

(** * Links between constraint tables and constraints *)

Definition links (mk : nat -> ckind) (cs : list (option nat)) (kinds : list ckind) : Prop :=
  forall i c, nth_error cs i = Some (Some c) <-> nth_error kinds c = Some (mk i).

Lemma nth_error_snoc {A} (l : list A) a i b : nth_error (l ++ [a]) i = Some b <-> nth_error l i = Some b \/ i = length l /\ a = b.
Proof.
  destruct (Nat.lt_ge_cases i (length l)).
  - rewrite nth_error_app1 by auto. split; [auto|intros [?|[? _]]; auto; lia].
  - rewrite nth_error_app2 by auto. assert (E : nth_error l i = None) by (apply nth_error_None; auto). rewrite E.
    destruct (i - length l) as [|j] eqn:Ei.
    + simpl. split; [intros Hi; injection Hi as ->; right; split; auto; lia|intros [?|[_ ->]]; [discriminate|auto]].
    + simpl. split; [destruct j; discriminate|intros [?|[? _]]; [discriminate|lia]].
Qed.

Lemma links_other mk cs kinds c : links mk cs kinds -> (forall i, mk i <> c) -> links mk cs (kinds ++ [c]).
Proof.
  intros H Hn i j. rewrite (H i j), nth_error_snoc. split; auto. intros [?|[_ E]]; auto. exfalso. apply (Hn i). auto.
Qed.

Lemma links_add mk cs kinds i : links mk cs kinds -> nth_error cs i = Some None -> (forall i j, mk i = mk j -> i = j) ->
  links mk (set_nth cs i (Some (length kinds))) (kinds ++ [mk i]).
Proof.
  intros H Hi Hinj j c. rewrite nth_error_snoc, <- (H j c).
  assert (Hlt : i < length cs) by (apply nth_error_Some; congruence).
  destruct (Nat.eq_dec j i) as [->|Hne].
  - rewrite nth_error_set_nth_same by auto. split.
    + intros E. injection E as <-. auto.
    + intros [E|[-> _]]; [congruence|auto].
  - rewrite nth_error_set_nth_other by auto. split; auto. intros [E|[-> E]]; auto. exfalso. apply Hne. symmetry. auto.
Qed.

Lemma links_once mk cs kinds i c c' : links mk cs kinds -> nth_error kinds c = Some (mk i) -> nth_error kinds c' = Some (mk i) -> c = c'.
Proof. intros H H1 H2. apply H in H1, H2. congruence. Qed.

Definition klinks (ns : list (key3 * nat)) (kinds : list ckind) : Prop :=
  forall l n k c, assoc key3_eqb ns (l, n, k) = Some c <-> nth_error kinds c = Some (KChoice l n k).

Lemma klinks_other ns kinds c : klinks ns kinds -> (forall l n k, KChoice l n k <> c) -> klinks ns (kinds ++ [c]).
Proof.
  intros H Hn l n k j. rewrite (H l n k j), nth_error_snoc. split; auto. intros [?|[_ E]]; auto. exfalso. eapply Hn; eauto.
Qed.

Lemma klinks_add ns kinds l n k : klinks ns kinds -> assoc key3_eqb ns (l, n, k) = None ->
  klinks (ns ++ [((l, n, k), length kinds)]) (kinds ++ [KChoice l n k]).
Proof.
  intros H Hn l' n' k' c. rewrite assoc_app, nth_error_snoc, <- (H l' n' k' c).
  destruct (assoc key3_eqb ns (l', n', k')) as [c'|] eqn:E.
  - split; [auto|]. intros [?|[_ E']]; auto. injection E' as -> -> ->. congruence.
  - destruct (key3_eqb (l, n, k) (l', n', k')) eqn:E1.
    + apply key3_iff in E1. injection E1 as -> -> ->. split; [intros E2; injection E2 as <-; auto|].
      intros [?|[-> _]]; [discriminate|auto].
    + split; [discriminate|]. intros [?|[_ E']]; [discriminate|]. injection E' as -> -> ->. exfalso.
      assert (key3_eqb (l', n', k') (l', n', k') = true) by (apply key3_iff; auto). congruence.
Qed.

(** * Loops over (leaf, node, split) *)

Definition ns_triples (leaves : list leaf) (nodes : list node) : list key3 :=
  flat_map (fun lf => flat_map (fun i =>
    match nth_error nodes i with Some nd => map (fun k => (l_id lf, n_id nd, k)) (n_cands nd) | None => [] end)
    (l_left lf ++ l_right lf)) leaves.

Lemma for_each_flat_map {A B S} (f : A -> list B) (body : B -> S -> res S) l : forall s,
  for_each (flat_map f l) body s = for_each l (fun a s => for_each (f a) body s) s.
Proof.
  induction l as [|a l IH]; intros s; simpl; auto. rewrite for_each_app.
  destruct (for_each (f a) body s); simpl; auto.
Qed.
Lemma for_each_map {A B S} (f : A -> B) (body : B -> S -> res S) l : forall s,
  for_each (map f l) body s = for_each l (fun a s => body (f a) s) s.
Proof. induction l as [|a l IH]; intros s; simpl; auto. destruct (body (f a) s); simpl; auto. Qed.
Lemma for_each_ext {A S} (f g : A -> S -> res S) l : (forall a s, In a l -> f a s = g a s) -> forall s,
  for_each l f s = for_each l g s.
Proof.
  induction l as [|a l IH]; intros H s; simpl; auto. rewrite H by (simpl; auto).
  destruct (g a s); simpl; auto. apply IH. intros; apply H; simpl; auto.
Qed.

Lemma for_ns_flat {A} leaves nodes (body : nat -> nat -> nat -> A -> res A) a :
  (forall lf i, In lf leaves -> In i (l_left lf ++ l_right lf) -> i < length nodes) ->
  for_ns leaves nodes body a = for_each (ns_triples leaves nodes) (fun t => body (fst (fst t)) (snd (fst t)) (snd t)) a.
Proof.
  intros H. unfold for_ns, ns_triples. rewrite for_each_flat_map. apply for_each_ext. intros lf s Hlf.
  rewrite for_each_flat_map. apply for_each_ext. intros i s1 Hi.
  specialize (H lf i Hlf Hi). apply nth_error_Some in H. unfold getitem.
  destruct (nth_error nodes i) as [nd|]; [|congruence]. simpl. rewrite for_each_map. reflexivity.
Qed.

Lemma ns_triples_In leaves nodes l n k :
  In (l, n, k) (ns_triples leaves nodes) <->
  exists lf i nd, In lf leaves /\ l_id lf = l /\ In i (l_left lf ++ l_right lf) /\ nth_error nodes i = Some nd /\
                  n_id nd = n /\ In k (n_cands nd).
Proof.
  unfold ns_triples. rewrite in_flat_map. split.
  - intros (lf & Hlf & H). apply in_flat_map in H. destruct H as (i & Hi & H).
    destruct (nth_error nodes i) as [nd|] eqn:E; [|contradiction]. apply in_map_iff in H. destruct H as (k' & E' & Hk).
    injection E' as <- <- <-. exists lf, i, nd. auto 10.
  - intros (lf & i & nd & H1 & H2 & H3 & H4 & H5 & H6). exists lf. split; auto. apply in_flat_map. exists i. split; auto.
    rewrite H4. apply in_map_iff. exists k. subst. auto.
Qed.

Lemma NoDup_flat_map {A B} (f : A -> list B) l : NoDup l -> (forall a, In a l -> NoDup (f a)) ->
  (forall a a' b, In a l -> In a' l -> In b (f a) -> In b (f a') -> a = a') -> NoDup (flat_map f l).
Proof.
  induction l as [|a l IH]; intros Hd Hf Hj; simpl; [constructor|]. inversion Hd as [|? ? Hn Hd']; subst.
  assert (H1 : NoDup (f a)) by (apply Hf; simpl; auto).
  assert (H2 : NoDup (flat_map f l)).
  { apply IH; auto; intros; [apply Hf|eapply Hj; eauto]; simpl; auto. }
  assert (H3 : forall b, In b (f a) -> ~ In b (flat_map f l)).
  { intros b Hb Hc. apply in_flat_map in Hc. destruct Hc as (a' & Ha' & Hb').
    assert (a = a') by (eapply Hj; eauto; simpl; auto). subst. auto. }
  clear - H1 H2 H3. induction (f a) as [|b bs IH]; simpl; auto. inversion H1; subst. constructor.
  - rewrite in_app_iff. intros [?|?]; auto. apply (H3 b); simpl; auto.
  - apply IH; auto. intros; apply H3; simpl; auto.
Qed.

(** * The complete tree *)

Lemma create_leaf_id l d : l < 2 ^ d -> l_id (create_leaf l d) = l.
Proof. intros H. destruct (leaf_bits d l H) as (bits & H1 & H2 & _). rewrite <- H2, (create_leaf_bits d bits H1). reflexivity. Qed.
Lemma create_leaf_nodes l d : l < 2 ^ d -> let lf := create_leaf l d in
  NoDup (l_left lf ++ l_right lf) /\ (forall n, In n (l_left lf ++ l_right lf) -> n < 2 ^ d - 1).
Proof.
  intros H. destruct (leaf_bits d l H) as (bits & H1 & H2 & _). rewrite <- H2, (create_leaf_bits d bits H1). simpl.
  split; [apply sides_NoDup|]. intros n Hn.
  eapply Permutation_in in Hn; [|apply sides_perm]. apply in_map_iff in Hn. destruct Hn as ([n' b] & E & Hn). simpl in E. subst n'.
  apply trail_split in Hn. destruct Hn as (u & v & E & ->). apply pos_lt_inner. subst bits. rewrite app_length in H1. simpl in H1. lia.
Qed.
Lemma complete_leaves_In d lf : In lf (complete_leaves d) <-> exists l, l < 2 ^ d /\ lf = create_leaf l d.
Proof.
  unfold complete_leaves. rewrite in_map_iff. split.
  - intros (l & E & H). apply in_seq in H. exists l. split; auto. lia.
  - intros (l & H & ->). exists l. split; auto. apply in_seq. lia.
Qed.
Lemma complete_leaves_ids d : map l_id (complete_leaves d) = seq 0 (2 ^ d).
Proof.
  unfold complete_leaves. rewrite map_map. rewrite <- (map_id (seq 0 (2 ^ d))) at 2. apply map_ext_in.
  intros l Hl. apply in_seq in Hl. apply create_leaf_id. lia.
Qed.
Lemma complete_leaves_nth_inv d l lf : nth_error (complete_leaves d) l = Some lf -> l < 2 ^ d /\ lf = create_leaf l d.
Proof.
  intros H. assert (Hl : l < 2 ^ d) by (rewrite <- (complete_leaves_length d); apply nth_error_Some; congruence).
  rewrite complete_leaves_nth in H by auto. injection H as <-. auto.
Qed.

Lemma leaf_of_complete d p : p_leaf p < 2 ^ d -> leaf_of (complete_leaves d) p = create_leaf (p_leaf p) d.
Proof. intros H. apply leaf_of_nth, complete_leaves_nth. auto. Qed.

(** The (leaf, node, split) keys of the complete tree. *)
Lemma tree_triples_In d nodes l n k : complete_nodes d nodes ->
  In (l, n, k) (ns_triples (complete_leaves d) nodes) <->
  l < 2 ^ d /\ In n (l_left (create_leaf l d) ++ l_right (create_leaf l d)) /\
  exists nd, nth_error nodes n = Some nd /\ In k (n_cands nd).
Proof.
  intros [Hn1 Hn2]. rewrite ns_triples_In. split.
  - intros (lf & i & nd & H1 & H2 & H3 & H4 & H5 & H6). apply complete_leaves_In in H1. destruct H1 as (l' & Hl & ->).
    rewrite create_leaf_id in H2 by auto. subst l'. rewrite (Hn2 i nd H4) in H5. subst n. eauto 10.
  - intros (H1 & H2 & nd & H3 & H4). exists (create_leaf l d), n, nd.
    rewrite create_leaf_id by auto. split; [apply complete_leaves_In; eauto|]. auto 10.
Qed.

Lemma tree_triples_NoDup d nodes : complete_nodes d nodes -> (forall n, In n nodes -> NoDup (n_cands n)) ->
  NoDup (ns_triples (complete_leaves d) nodes).
Proof.
  intros [Hn1 Hn2] Hc. unfold ns_triples. apply NoDup_flat_map.
  - apply (NoDup_map_inv l_id). rewrite complete_leaves_ids. apply seq_NoDup.
  - intros lf Hlf. apply complete_leaves_In in Hlf. destruct Hlf as (l & Hl & ->).
    destruct (create_leaf_nodes l d Hl) as [Hd _]. apply NoDup_flat_map; auto.
    + intros i _. destruct (nth_error nodes i) as [nd|] eqn:E; [|constructor].
      apply FinFun.Injective_map_NoDup; [intros a b Hab; congruence|]. apply Hc. eapply nth_error_In; eauto.
    + intros i j [[l' n'] k'] _ _ H1 H2.
      destruct (nth_error nodes i) as [nd|] eqn:E1; [|contradiction]. destruct (nth_error nodes j) as [nd'|] eqn:E2; [|contradiction].
      apply in_map_iff in H1, H2. destruct H1 as (? & E3 & _). destruct H2 as (? & E4 & _).
      apply Hn2 in E1, E2. congruence.
  - intros lf lf' [[l n] k] H1 H2 H3 H4. apply complete_leaves_In in H1, H2.
    destruct H1 as (l1 & L1 & ->). destruct H2 as (l2 & L2 & ->).
    apply in_flat_map in H3, H4. destruct H3 as (i & _ & H3). destruct H4 as (j & _ & H4).
    destruct (nth_error nodes i) as [nd|]; [|contradiction]. destruct (nth_error nodes j) as [nd'|]; [|contradiction].
    apply in_map_iff in H3, H4. destruct H3 as (? & E3 & _). destruct H4 as (? & E4 & _).
    rewrite create_leaf_id in E3, E4 by auto. congruence.
Qed.

(** Solutions of the tree master problem: integer solutions are trees, implied row constraints, upper bounds. *)
From Verif Require Import Base Lp LpProofs TreeModel SpecTree TreeGeoProofs TreePathProofs TreeLpBuild TreeBuildProofs TreeGenProofs
  TreeInvProofs TreeOpProofs TreeCutProofs TreeFormProofs SpecTreeRun TreeRunProofs TreeMasterProofs SpecTreeLp.
Open Scope nat_scope.

(** Non-negative integers with sum 1: one is 1, the others are 0. *)
Lemma unit_sum {A} (f : A -> Q) l : (forall a, In a l -> (0 <= f a)%Q /\ exists z : Z, (f a == inject_Z z)%Q) -> (qsum f l == 1)%Q ->
  exists u a v, l = u ++ a :: v /\ (f a == 1)%Q /\ (forall b, In b (u ++ v) -> (f b == 0)%Q).
Proof.
  induction l as [|a l IH]; intros H E.
  - change (qsum f []) with 0%Q in E. lra.
  - rewrite qsum_cons in E. destruct (H a) as [Ha [z Hz]]; [simpl; auto|].
    assert (Hs : (0 <= qsum f l)%Q) by (apply qsum_nonneg; intros b Hb; apply H; simpl; auto).
    assert (Hz1 : (0 <= z <= 1)%Z).
    { split; [rewrite Zle_Qle|rewrite Zle_Qle]; rewrite <- Hz; unfold inject_Z; lra. }
    destruct (Z.eq_dec z 0) as [->|Hz0].
    + assert (f a == 0)%Q by (rewrite Hz; reflexivity). destruct IH as (u & b & v & -> & Hb & Ho).
      * intros b Hb. apply H. simpl. auto.
      * lra.
      * exists (a :: u), b, v. split; auto. split; auto. intros c [<-|Hc]; auto.
    + assert (z = 1)%Z by lia. subst z. assert (E1 : (f a == 1)%Q) by (rewrite Hz; reflexivity).
      exists [], a, l. split; auto. split; auto. simpl. intros b Hb. apply Qle_antisym.
      * assert (f b <= qsum f l)%Q.
        { apply in_split in Hb. destruct Hb as (u & v & ->). rewrite qsum_app, qsum_cons.
          assert (0 <= qsum f u)%Q by (apply qsum_nonneg; intros c Hc; apply H; simpl; rewrite in_app_iff; auto).
          assert (0 <= qsum f v)%Q by (apply qsum_nonneg; intros c Hc; apply H; simpl; rewrite in_app_iff; simpl; auto). lra. }
        lra.
      * apply H. simpl. auto.
Qed.

Section Sol.
Variables (d : nat) (X : list sample) (nodes : list node) (splits : list split).
Variables (paths : list path) (rows : list nat) (cuts : list (list bool)) (kinds : list ckind) (cv : nat -> nat -> nat) (m : lp).
Let leaves := complete_leaves d.
Hypothesis F : formulation X leaves nodes splits paths rows cuts kinds cv m.
Hypothesis Hproper : Forall (fun p => tree_path d splits p /\ uses_candidates nodes p) paths.
Variable x : nat -> Q.
Hypothesis Hx : meets_tree_constraints kinds m x.

Lemma sol_nonneg p : In p paths -> (0 <= x (p_id p))%Q.
Proof. intros Hp. apply Hx. apply (fm_path_vars _ _ _ _ _ _ _ _ _ _ F). auto. Qed.

Lemma sol_con c : In c kinds -> (match c with KLeaf _ | KChoice _ _ _ => True | _ => False end) ->
  in_bounds (fst (kind_bounds c)) (snd (kind_bounds c))
    (qsum (fun p => if covb X leaves splits c p then x (p_id p) else 0) paths + match c with KChoice _ n s => - x (cv n s) | _ => 0 end)%Q.
Proof.
  intros Hc Hk. apply In_nth_error in Hc. destruct Hc as [i Hi].
  destruct (Forall2_nth_error _ _ _ _ _ (fm_cons _ _ _ _ _ _ _ _ _ _ F) Hi) as (k & Hk' & HB & _).
  destruct Hx as [_ H2]. specialize (H2 i c k Hi Hk' Hk).
  rewrite <- HB. simpl. pose proof (form_activity _ _ _ _ _ _ _ _ _ _ F i c k x Hi Hk') as E. destruct H2 as [L U]. split; intros b Hb.
  - rewrite <- E. auto.
  - rewrite <- E. auto.
Qed.

Lemma sol_leaf l : l < 2 ^ d -> (qsum (fun p => if p_leaf p =? l then x (p_id p) else 0) paths == 1)%Q.
Proof.
  intros Hl. destruct (sol_con (KLeaf l)) as [L U]; simpl; auto.
  { apply (fm_leaves _ _ _ _ _ _ _ _ _ _ F). unfold leaves. rewrite complete_leaves_length. auto. }
  specialize (L 1%Q eq_refl). specialize (U 1%Q eq_refl). simpl in L, U. lra.
Qed.
Lemma sol_choice l n k : In (KChoice l n k) kinds ->
  (qsum (fun p => if covb X leaves splits (KChoice l n k) p then x (p_id p) else 0) paths == x (cv n k))%Q.
Proof.
  intros Hk. destruct (sol_con (KChoice l n k) Hk I) as [L U].
  specialize (L 0%Q eq_refl). specialize (U 0%Q eq_refl). lra.
Qed.

Lemma path_proper p : In p paths -> tree_path d splits p /\ uses_candidates nodes p.
Proof. rewrite Forall_forall in Hproper. auto. Qed.

(** Node [n] is above leaf [l]. *)
Definition above (n l : nat) : Prop := In n (l_left (create_leaf l d) ++ l_right (create_leaf l d)).

Lemma path_above p n : In p paths -> (In n (p_nodes p) <-> above n (p_leaf p)).
Proof.
  intros Hp. destruct (path_proper p Hp) as [(_ & Hperm & _) _]. unfold above. split; apply Permutation_in; auto. apply Permutation_sym; auto.
Qed.
Lemma path_split p n : In p paths -> above n (p_leaf p) -> exists k, In (n, k) (choices p).
Proof.
  intros Hp Ha. apply (path_above p n Hp) in Ha. destruct (path_proper p Hp) as [Ht _].
  destruct (tree_path_lengths d splits p Ht) as [H1 H2]. apply combine_In_fst; auto. congruence.
Qed.
Lemma choice_above p n k : In p paths -> In (n, k) (choices p) -> above n (p_leaf p).
Proof. intros Hp Hc. apply (path_above p n Hp). unfold choices in Hc. eapply in_combine_l; eauto. Qed.
Lemma combine_functional {A B} (l : list A) (m' : list B) a b c : NoDup l -> In (a, b) (combine l m') -> In (a, c) (combine l m') -> b = c.
Proof.
  revert m'. induction l as [|a' l IH]; intros [|b' m'] Hn H1 H2; simpl in *; try contradiction. inversion Hn; subst.
  destruct H1 as [E1|H1], H2 as [E2|H2].
  - congruence.
  - injection E1 as -> ->. apply in_combine_l in H2. contradiction.
  - injection E2 as -> ->. apply in_combine_l in H1. contradiction.
  - eauto.
Qed.
Lemma choice_once p n k k' : In p paths -> In (n, k) (choices p) -> In (n, k') (choices p) -> k = k'.
Proof. intros Hp. destruct (path_proper p Hp) as [Ht _]. apply combine_functional. eapply tree_path_NoDup; eauto. Qed.
Lemma choice_kind p n k : In p paths -> In (n, k) (choices p) -> In (KChoice (p_leaf p) n k) kinds.
Proof.
  intros Hp Hc. apply (fm_choices _ _ _ _ _ _ _ _ _ _ F). destruct (path_proper p Hp) as [(Hl & _) Hu].
  destruct (Hu n k Hc) as (nd & Hn & Hk). exists (create_leaf (p_leaf p) d), nd. split; [apply complete_leaves_nth; auto|].
  split; [eapply choice_above; eauto|]. auto.
Qed.
(** A choice constraint of one leaf gives those of all leaves below the node. *)
Lemma choice_kind_other l n k l' : In (KChoice l n k) kinds -> l' < 2 ^ d -> above n l' -> In (KChoice l' n k) kinds.
Proof.
  intros Hk Hl Ha. apply (fm_choices _ _ _ _ _ _ _ _ _ _ F) in Hk. destruct Hk as (lf & nd & _ & _ & Hn & Hc).
  apply (fm_choices _ _ _ _ _ _ _ _ _ _ F). exists (create_leaf l' d), nd. split; [apply complete_leaves_nth; auto|]. auto.
Qed.

Lemma cov_choice l n k p : covb X leaves splits (KChoice l n k) p = true <-> p_leaf p = l /\ In (n, k) (choices p).
Proof. rewrite covb_iff. reflexivity. Qed.

(** A leaf has at least one path. *)
Lemma leaf_path l : l < 2 ^ d -> exists p, In p paths /\ p_leaf p = l.
Proof.
  intros Hl. destruct (existsb (fun p => p_leaf p =? l) paths) eqn:E.
  - apply existsb_exists in E. destruct E as (p & Hp & E). apply Nat.eqb_eq in E. eauto.
  - exfalso. pose proof (sol_leaf l Hl) as S. rewrite qsum_zero in S; [lra|]. intros p Hp.
    destruct (p_leaf p =? l) eqn:E1; [|reflexivity]. exfalso.
    assert (existsb (fun p => p_leaf p =? l) paths = true) by (apply existsb_exists; eauto). congruence.
Qed.

(** ** Integer solutions *)

Section Int.
Hypothesis Hint : integral m x.
Definition selected : list path := filter (fun p => Qltb 0 (x (p_id p))) paths.

Lemma sel_in p : In p selected <-> In p paths /\ (0 < x (p_id p))%Q.
Proof. unfold selected. rewrite filter_In, Qltb_true. reflexivity. Qed.

Lemma leaf_one l : l < 2 ^ d -> exists p, In p paths /\ p_leaf p = l /\ (x (p_id p) == 1)%Q /\
  forall q, In q paths -> p_leaf q = l -> q <> p -> (x (p_id q) == 0)%Q.
Proof.
  intros Hl. pose proof (sol_leaf l Hl) as S. apply unit_sum in S.
  - destruct S as (u & p & v & E & H1 & H0). destruct (Nat.eqb_spec (p_leaf p) l) as [El|]; [|lra].
    assert (Hp : In p paths) by (rewrite E; apply in_elt). exists p. split; auto. split; auto. split; auto.
    intros q Hq Eq Hne. rewrite E in Hq. apply in_app_iff in Hq. assert (Hq' : In q (u ++ v)).
    { apply in_app_iff. simpl in Hq. destruct Hq as [Hq|[Hq|Hq]]; auto. congruence. }
    specialize (H0 q Hq'). cbn beta in H0. rewrite Eq, Nat.eqb_refl in H0. exact H0.
  - intros p Hp. destruct (p_leaf p =? l); [split; [apply sol_nonneg; auto|apply Hint; apply (fm_path_vars _ _ _ _ _ _ _ _ _ _ F); auto]|].
    split; [lra|]. exists 0%Z. reflexivity.
Qed.

Lemma path_leaf_lt p : In p paths -> p_leaf p < 2 ^ d.
Proof. intros Hp. apply (path_proper p Hp). Qed.

Lemma sel_one p : In p selected -> (x (p_id p) == 1)%Q.
Proof.
  intros Hp. apply sel_in in Hp. destruct Hp as [Hp Hpos]. destruct (leaf_one (p_leaf p) (path_leaf_lt p Hp)) as (q & Hq & El & E1 & E0).
  destruct (path_eq_dec p q) as [->|Hne]; auto. rewrite (E0 p) in Hpos by auto. lra.
Qed.
Lemma unsel_zero p : In p paths -> ~ In p selected -> (x (p_id p) == 0)%Q.
Proof.
  intros Hp Hn. pose proof (sol_nonneg p Hp). apply Qle_antisym; auto. apply Qnot_lt_le. intros H1. apply Hn, sel_in. auto.
Qed.
Lemma sel_leaf p q : In p selected -> In q selected -> p_leaf p = p_leaf q -> p = q.
Proof.
  intros Hp Hq E. apply sel_in in Hp. apply sel_in in Hq. destruct Hp as [Hp H1], Hq as [Hq H2].
  destruct (leaf_one (p_leaf p) (path_leaf_lt p Hp)) as (r & Hr & El & E1 & E0).
  destruct (path_eq_dec p r) as [->|Hne]; [|rewrite (E0 p) in H1 by auto; lra].
  destruct (path_eq_dec q r) as [->|Hne]; [auto|rewrite (E0 q) in H2 by auto; lra].
Qed.
Lemma paths_NoDup : NoDup paths.
Proof. apply (NoDup_map_inv' p_id), (fm_path_ids _ _ _ _ _ _ _ _ _ _ F). Qed.
Lemma sel_leaves : Permutation (map p_leaf selected) (seq 0 (2 ^ d)).
Proof.
  apply NoDup_Permutation.
  - apply NoDup_map_on; [apply NoDup_filter, paths_NoDup|]. intros. apply sel_leaf; auto.
  - apply seq_NoDup.
  - intros l. rewrite in_map_iff, in_seq. split.
    + intros (p & <- & Hp). apply sel_in in Hp. pose proof (path_leaf_lt p (proj1 Hp)). lia.
    + intros Hl. destruct (leaf_one l) as (p & Hp & El & E1 & _); [lia|]. exists p. split; auto. apply sel_in. split; auto. lra.
Qed.

(** Selected paths agree on common nodes. *)
Lemma sel_agree p q n k k' : In p selected -> In q selected -> In (n, k) (choices p) -> In (n, k') (choices q) -> k = k'.
Proof.
  intros Hp Hq Hk Hk'. assert (Hp' := proj1 (proj1 (sel_in p) Hp)). assert (Hq' := proj1 (proj1 (sel_in q) Hq)).
  pose proof (choice_kind p n k Hp' Hk) as Kp.
  assert (Kq : In (KChoice (p_leaf q) n k) kinds).
  { eapply choice_kind_other; eauto. apply path_leaf_lt; auto. eapply choice_above; eauto. }
  assert (Hpos : (0 < x (cv n k))%Q).
  { rewrite <- (sol_choice _ _ _ Kp). apply in_split in Hp'. destruct Hp' as (u & v & E).
    assert (E2 : (qsum (fun p0 => if covb X leaves splits (KChoice (p_leaf p) n k) p0 then x (p_id p0) else 0) paths ==
      qsum (fun p0 => if covb X leaves splits (KChoice (p_leaf p) n k) p0 then x (p_id p0) else 0) u + (x (p_id p) +
      qsum (fun p0 => if covb X leaves splits (KChoice (p_leaf p) n k) p0 then x (p_id p0) else 0) v))%Q).
    { rewrite E, qsum_app, qsum_cons. assert (C : covb X leaves splits (KChoice (p_leaf p) n k) p = true) by (apply cov_choice; auto).
      rewrite C. reflexivity. }
    rewrite E2. assert (G : forall w, incl w paths -> (0 <= qsum (fun p0 => if covb X leaves splits (KChoice (p_leaf p) n k) p0 then x (p_id p0) else 0) w)%Q).
    { intros w Hw. apply qsum_nonneg. intros a Ha. destruct (covb _ _ _ _ a); [apply sol_nonneg; auto|lra]. }
    assert (0 <= qsum (fun p0 => if covb X leaves splits (KChoice (p_leaf p) n k) p0 then x (p_id p0) else 0) u)%Q
      by (apply G; rewrite E; apply incl_appl, incl_refl).
    assert (0 <= qsum (fun p0 => if covb X leaves splits (KChoice (p_leaf p) n k) p0 then x (p_id p0) else 0) v)%Q
      by (apply G; rewrite E; apply incl_appr, incl_tl, incl_refl).
    pose proof (sel_one p Hp). lra. }
  destruct (existsb (fun q' => covb X leaves splits (KChoice (p_leaf q) n k) q' && Qltb 0 (x (p_id q'))) paths) eqn:Ex.
  - apply existsb_exists in Ex. destruct Ex as (q' & Hq2 & Eb). apply andb_true_iff in Eb. destruct Eb as [E1 E2].
    apply Qltb_true in E2. apply cov_choice in E1. destruct E1 as [El Hc].
    assert (q' = q) by (apply sel_leaf; auto; apply sel_in; auto). subst q'. eapply choice_once; eauto.
  - exfalso. rewrite <- (sol_choice _ _ _ Kq) in Hpos. rewrite qsum_zero in Hpos; [lra|]. intros q' Hq2.
    destruct (covb X leaves splits (KChoice (p_leaf q) n k) q') eqn:Ec; [|reflexivity]. apply Qle_antisym; [|apply sol_nonneg; auto].
    apply Qnot_lt_le. intros Hlt. apply Qltb_true in Hlt.
    assert (existsb (fun q' => covb X leaves splits (KChoice (p_leaf q) n k) q' && Qltb 0 (x (p_id q'))) paths = true).
    { apply existsb_exists. exists q'. rewrite Ec, Hlt. auto. }
    congruence.
Qed.

Definition tree_of (n : nat) : nat :=
  match find (fun p => memb n (p_nodes p)) selected with
  | Some p => match find (fun nk => fst nk =? n) (choices p) with Some nk => snd nk | None => 0 end
  | None => 0
  end.
Lemma tree_of_choice p n k : In p selected -> In (n, k) (choices p) -> tree_of n = k.
Proof.
  intros Hp Hc. unfold tree_of. destruct (find (fun p0 => memb n (p_nodes p0)) selected) as [q|] eqn:Eq.
  - apply find_some in Eq. destruct Eq as [Hq Hm]. apply memb_In in Hm.
    assert (Hq' := proj1 (proj1 (sel_in q) Hq)).
    destruct (path_split q n Hq') as [k' Hk']; [apply path_above; auto|].
    destruct (find (fun nk => fst nk =? n) (choices q)) as [[n2 k2]|] eqn:Ef.
    + apply find_some in Ef. destruct Ef as [Hin E]. simpl in E. apply Nat.eqb_eq in E. subst n2. exact (eq_sym (sel_agree p q n k k2 Hp Hq Hc Hin)).
    + apply (find_none _ _ Ef) in Hk'. simpl in Hk'. rewrite Nat.eqb_refl in Hk'. discriminate.
  - apply (find_none _ _ Eq) in Hp. assert (memb n (p_nodes p) = true); [|congruence]. apply memb_In. unfold choices in Hc. eapply in_combine_l; eauto.
Qed.
Lemma sel_agrees : Forall (agrees tree_of) selected.
Proof. apply Forall_forall. intros p Hp n k Hc. symmetry. eapply tree_of_choice; eauto. Qed.

Lemma above_exists n : n < 2 ^ d - 1 -> exists l, l < 2 ^ d /\ above n l.
Proof.
  intros Hn. destruct (node_bits d n Hn) as (bits & Hb & Ep).
  set (full := bits ++ repeat true (d - length bits)).
  assert (Hf : length full = d) by (unfold full; rewrite app_length, repeat_length; lia).
  exists (num full). split; [rewrite <- Hf; apply num_lt|]. unfold above. rewrite (create_leaf_bits d full Hf). cbn [l_left l_right].
  apply (Permutation_in _ (Permutation_sym (sides_perm full))). apply in_map_iff. exists (n, true). split; auto.
  apply trail_split. exists bits, (repeat true (d - length bits - 1)). split; auto. unfold full. f_equal.
  destruct (d - length bits) as [|j] eqn:Ed; [lia|]. simpl. rewrite Nat.sub_0_r. reflexivity.
Qed.

Lemma tree_of_over : tree_over d nodes tree_of.
Proof.
  intros n nd Hn Hnd. destruct (above_exists n Hn) as (l & Hl & Ha).
  destruct (leaf_one l Hl) as (p & Hp & El & E1 & _). assert (Hs : In p selected) by (apply sel_in; split; auto; lra).
  subst l. destruct (path_split p n Hp Ha) as [k Hk]. rewrite (tree_of_choice p n k Hs Hk).
  destruct (path_proper p Hp) as [_ Hu]. destruct (Hu n k Hk) as (nd' & Hn' & Hin). congruence.
Qed.

Lemma sel_tree_solution : tree_solution d splits tree_of paths x.
Proof.
  exists selected. split; [intros p Hp; apply sel_in in Hp; tauto|]. split; [apply sel_leaves|]. split.
  - apply Forall_forall. intros p Hp. apply path_proper. apply sel_in in Hp. tauto.
  - split; [apply sel_agrees|]. split; [apply sel_one|apply unsel_zero].
Qed.
End Int.

(** ** Rows with at most two reachable leaves *)

Section Two.
Hypothesis Hnodes : complete_nodes d nodes.
Hypothesis Hcands : forall n, In n nodes -> NoDup (n_cands n).
Variable L : nat -> bool.

(** The splits at every node of the trail can send the row along the trail. *)
Definition rch (bits : list bool) : Prop :=
  forall n b, In (n, b) (trail 0 bits) -> exists nd k, nth_error nodes n = Some nd /\ In k (n_cands nd) /\ L k = b.

Lemma rch_reachable bits : length bits = d -> rch bits -> reachable d nodes L (num bits).
Proof.
  intros Hl Hr. split; [rewrite <- Hl; apply num_lt|].
  exists (fun n => match find (fun nb => fst nb =? n) (trail 0 bits), nth_error nodes n with
                   | Some (_, b), Some nd => match find (fun k => Bool.eqb (L k) b) (n_cands nd) with Some k => k | None => 0 end
                   | _, _ => 0 end).
  assert (G : forall n b nd, In (n, b) (trail 0 bits) -> nth_error nodes n = Some nd ->
    exists k, find (fun nb => fst nb =? n) (trail 0 bits) = Some (n, b) /\ find (fun k => Bool.eqb (L k) b) (n_cands nd) = Some k /\ In k (n_cands nd) /\ L k = b).
  { intros n b nd Hin Hn. destruct (find (fun nb => fst nb =? n) (trail 0 bits)) as [[n2 b2]|] eqn:Ef.
    - apply find_some in Ef. destruct Ef as [Hin2 E]. simpl in E. apply Nat.eqb_eq in E. subst n2.
      assert (b2 = b) by (eapply trail_functional; eauto). subst b2.
      destruct (Hr n b Hin) as (nd' & k & Hn' & Hk & Lk). assert (nd' = nd) by congruence. subst nd'.
      destruct (find (fun k => Bool.eqb (L k) b) (n_cands nd)) as [k'|] eqn:Ek.
      + apply find_some in Ek. destruct Ek as [Hk' E']. apply Bool.eqb_prop in E'. exists k'. auto.
      + apply (find_none _ _ Ek) in Hk. rewrite Lk, Bool.eqb_reflx in Hk. discriminate.
    - apply (find_none _ _ Ef) in Hin. simpl in Hin. rewrite Nat.eqb_refl in Hin. discriminate. }
  split.
  - intros n nd Hb Hn. rewrite <- (pos_leaf d bits Hl) in Hb.
    assert (Hlt : n < 2 ^ d - 1) by (destruct Hnodes as [H1 _]; rewrite <- H1; apply nth_error_Some; congruence).
    destruct (proj1 (below_trail bits n)) as [b Hin].
    { split; auto. pose proof (pos_bounds bits) as Hp. rewrite Hl in Hp. lia. }
    destruct (G n b nd Hin Hn) as (k & E1 & E2 & Hk & _). rewrite E1, Hn, E2. exact Hk.
  - rewrite <- Hl. apply leaf_reached_iff. intros n b Hin. destruct (Hr n b Hin) as (nd & _ & Hn & _).
    destruct (G n b nd Hin Hn) as (k & E1 & E2 & _ & Lk). rewrite E1, Hn, E2. exact Lk.
Qed.

Lemma reachable_rch l : reachable d nodes L l -> exists bits, length bits = d /\ num bits = l /\ rch bits.
Proof.
  intros (Hl & tree & Hc & Hr). destruct (leaf_bits d l Hl) as (bits & H1 & H2 & H3). exists bits. split; auto. split; auto.
  intros n b Hin. rewrite <- H2, <- H1 in Hr. rewrite leaf_reached_iff in Hr.
  assert (Hlt : n < length nodes).
  { destruct Hnodes as [-> _]. apply trail_split in Hin. destruct Hin as (u & v & -> & ->). apply pos_lt_inner. rewrite app_length in H1. simpl in H1. lia. }
  destruct (nth_error nodes n) as [nd|] eqn:En; [|apply nth_error_None in En; lia].
  exists nd, (tree n). split; auto. split; [|apply Hr; auto]. apply Hc; auto. rewrite <- H3. apply below_trail. eauto.
Qed.

Lemma node_cand n : n < 2 ^ d - 1 -> exists nd k, nth_error nodes n = Some nd /\ In k (n_cands nd).
Proof.
  intros Hn. destruct (above_exists n Hn) as (l & Hl & Ha). destruct (leaf_path l Hl) as (p & Hp & El). subst l.
  destruct (path_split p n Hp Ha) as [k Hk]. destruct (path_proper p Hp) as [_ Hu]. destruct (Hu n k Hk) as (nd & Hn' & Hin). eauto.
Qed.

Lemma rch_snoc u n b nd k : rch u -> n = pos 0 u -> nth_error nodes n = Some nd -> In k (n_cands nd) -> L k = b -> rch (u ++ [b]).
Proof.
  intros Hu -> Hn Hk Hb n' b' Hin. rewrite trail_app in Hin. apply in_app_iff in Hin. destruct Hin as [Hin|Hin]; [apply Hu; auto|].
  simpl in Hin. destruct Hin as [E|[]]. injection E as <- <-. eauto.
Qed.
Lemma rch_extend j : forall u, d = length u + j -> rch u -> exists v, length (u ++ v) = d /\ rch (u ++ v).
Proof.
  induction j as [|j IH]; intros u Hd Hu.
  - exists []. rewrite app_nil_r. split; auto. lia.
  - destruct (node_cand (pos 0 u)) as (nd & k & Hn & Hk); [apply pos_lt_inner; lia|].
    destruct (IH (u ++ [L k])) as (v & H1 & H2).
    + rewrite app_length. simpl. lia.
    + eapply rch_snoc; eauto.
    + exists (L k :: v). rewrite <- app_assoc in H1, H2. auto.
Qed.
Lemma rch_prefix u v : rch (u ++ v) -> rch u.
Proof. intros H n b Hin. apply H. rewrite trail_app. apply in_app_iff. auto. Qed.

Lemma diverge (a : list bool) : forall b, length a = length b -> a <> b -> exists u c v w, a = u ++ c :: v /\ b = u ++ negb c :: w.
Proof.
  induction a as [|x0 a IH]; intros [|y b] Hl Hne; simpl in Hl; try discriminate; [congruence|].
  destruct (Bool.bool_dec x0 y) as [->|Hxy].
  - destruct (IH b) as (u & c & v & w & -> & ->); [lia|congruence|]. exists (y :: u), c, v, w. auto.
  - exists [], x0, a, b. split; auto. simpl. f_equal. destruct x0, y; auto; congruence.
Qed.
Lemma diverge_once (u u' : list bool) : forall c c' v v' w w', u ++ c :: v = u' ++ c' :: v' -> u ++ negb c :: w = u' ++ negb c' :: w' -> u = u'.
Proof.
  revert u'. induction u as [|a u IH]; intros [|a' u'] c c' v v' w w' E1 E2; simpl in *; auto.
  - injection E1 as E1 _. injection E2 as E2 _. destruct c, a'; simpl in *; congruence.
  - injection E1 as E1 _. injection E2 as E2 _. destruct c', a; simpl in *; congruence.
  - injection E1 as <- E1. injection E2 as E2. f_equal. eapply (IH u' c c' v v' w w'); auto.
Qed.

Let fol (p : path) : bool := followsb (create_leaf (p_leaf p) d) L p.
Lemma fol_bits p bits : In p paths -> length bits = d -> num bits = p_leaf p ->
  (fol p = true <-> forall n k, In (n, k) (choices p) -> In (n, L k) (trail 0 bits)).
Proof. intros Hp H1 H2. unfold fol. rewrite followsb_iff. destruct (path_proper p Hp) as [Ht _]. apply (follows_bits d splits p Ht); auto. Qed.
Lemma path_bits p : In p paths -> exists bits, length bits = d /\ num bits = p_leaf p.
Proof. intros Hp. destruct (leaf_bits d (p_leaf p)) as (bits & H1 & H2 & _); [apply path_proper; auto|]. eauto. Qed.
Lemma fol_rch p bits : In p paths -> length bits = d -> num bits = p_leaf p -> fol p = true -> rch bits.
Proof.
  intros Hp H1 H2 Hf n b Hin. rewrite (fol_bits p bits Hp H1 H2) in Hf. destruct (path_split p n Hp) as [k Hk].
  { unfold above. rewrite <- H2, (create_leaf_bits d bits H1). cbn [l_left l_right]. apply (Permutation_in _ (Permutation_sym (sides_perm bits))).
    apply in_map_iff. exists (n, b). auto. }
  destruct (path_proper p Hp) as [_ Hu]. destruct (Hu n k Hk) as (nd & Hn & Hin'). exists nd, k. split; auto. split; auto.
  eapply trail_functional; [apply Hf; eauto|exact Hin].
Qed.
(** A path follows if all candidate splits on the trail agree with it, or at least its own. *)
Lemma fol_intro p bits : In p paths -> length bits = d -> num bits = p_leaf p ->
  (forall n b k, In (n, b) (trail 0 bits) -> In (n, k) (choices p) -> L k = b) -> fol p = true.
Proof.
  intros Hp H1 H2 Hall. apply (fol_bits p bits Hp H1 H2). intros n k Hc.
  pose proof (choice_above p n k Hp Hc) as Ha. unfold above in Ha. rewrite <- H2, (create_leaf_bits d bits H1) in Ha. cbn [l_left l_right] in Ha.
  apply (Permutation_in _ (sides_perm bits)) in Ha. apply in_map_iff in Ha. destruct Ha as ([n' b] & E & Hin). simpl in E. subst n'.
  rewrite (Hall n b k Hin Hc). exact Hin.
Qed.

Definition uses_at (n : nat) (g : nat -> bool) (p : path) : bool := existsb (fun nk => (fst nk =? n) && g (snd nk)) (choices p).
Lemma uses_at_iff n g p k : In p paths -> In (n, k) (choices p) -> uses_at n g p = g k.
Proof.
  intros Hp Hc. unfold uses_at. destruct (g k) eqn:E.
  - apply existsb_exists. exists (n, k). simpl. rewrite Nat.eqb_refl, E. auto.
  - apply not_true_is_false. intros H. apply existsb_exists in H. destruct H as ([n' k'] & Hin & Hb). simpl in Hb.
    apply andb_true_iff in Hb. destruct Hb as [H1 H2]. apply Nat.eqb_eq in H1. subst n'.
    assert (k' = k) by (eapply choice_once; eauto). congruence.
Qed.

Lemma split_sum n nd l g : nth_error nodes n = Some nd -> l < 2 ^ d -> above n l ->
  (qsum (fun p => if (p_leaf p =? l) && uses_at n g p then x (p_id p) else 0) paths ==
   qsum (fun k => if g k then x (cv n k) else 0) (n_cands nd))%Q.
Proof.
  intros Hn Hl Ha.
  assert (Hk : forall k, In k (n_cands nd) -> In (KChoice l n k) kinds).
  { intros k Hk. apply (fm_choices _ _ _ _ _ _ _ _ _ _ F). exists (create_leaf l d), nd. split; [apply complete_leaves_nth; auto|]. auto. }
  assert (E : (qsum (fun k => if g k then x (cv n k) else 0) (n_cands nd) ==
    qsum (fun k => qsum (fun p => if g k && covb X leaves splits (KChoice l n k) p then x (p_id p) else 0) paths) (n_cands nd))%Q).
  { apply qsum_ext. intros k Hin. destruct (g k); cbn [andb].
    - rewrite (sol_choice l n k (Hk k Hin)). reflexivity.
    - symmetry. apply qsum_zero. intros; reflexivity. }
  rewrite E. clear E. rewrite qsum_swap. apply qsum_ext. intros p Hp. destruct (Nat.eqb_spec (p_leaf p) l) as [El|Hne]; cbn [andb].
  - subst l. destruct (path_split p n Hp Ha) as [k Hc]. rewrite (uses_at_iff n g p k Hp Hc).
    destruct (path_proper p Hp) as [_ Hu]. destruct (Hu n k Hc) as (nd' & Hn' & Hin). assert (nd' = nd) by congruence. subst nd'.
    rewrite (qsum_single Nat.eq_dec _ (n_cands nd) k); auto.
    + assert (C : covb X leaves splits (KChoice (p_leaf p) n k) p = true) by (apply cov_choice; auto). rewrite C, Bool.andb_true_r. reflexivity.
    + apply Hcands. eapply nth_error_In; eauto.
    + intros k' _ Hne. destruct (covb X leaves splits (KChoice (p_leaf p) n k') p) eqn:C; [|rewrite Bool.andb_false_r; reflexivity].
      exfalso. apply cov_choice in C. apply Hne. eapply choice_once; [exact Hp|apply C|exact Hc].
  - symmetry. apply qsum_zero. intros k _. destruct (covb X leaves splits (KChoice l n k) p) eqn:C; [|rewrite Bool.andb_false_r; reflexivity].
    exfalso. apply cov_choice in C. apply Hne. apply C.
Qed.

Lemma two_leaves R : length R <= 2 -> (forall l, reachable d nodes L l -> In l R) ->
  (qsum (fun p => if fol p then x (p_id p) else 0) paths == 1)%Q.
Proof.
  intros HR Hall. destruct (rch_extend d [] eq_refl) as (b0 & Hl0 & Hr0); [intros n b []|]. cbn [app] in *.
  assert (Hn0 : num b0 < 2 ^ d) by (rewrite <- Hl0; apply num_lt).
  (* is there a node on the trail of b0 with candidates in both directions? *)
  set (turnable := fun nb : nat * bool => match nth_error nodes (fst nb) with
                                         | Some nd => existsb (fun k => Bool.eqb (L k) (negb (snd nb))) (n_cands nd) | None => false end).
  destruct (existsb turnable (trail 0 b0)) eqn:Et.
  - apply existsb_exists in Et. destruct Et as ([n b] & Hin & Ht). unfold turnable in Ht. cbn [fst snd] in Ht.
    destruct (nth_error nodes n) as [nd|] eqn:En; [|discriminate]. apply existsb_exists in Ht. destruct Ht as (k1 & Hk1 & E1). apply Bool.eqb_prop in E1.
    apply trail_split in Hin. destruct Hin as (u & v & E0 & ->). 
    assert (Hu : rch u) by (apply (rch_prefix u (b :: v)); rewrite <- E0; auto).
    assert (Hlu : length u < d) by (rewrite <- Hl0, E0, app_length; simpl; lia).
    destruct (rch_extend (d - S (length u)) (u ++ [negb b])) as (v' & Hl1 & Hr1).
    { rewrite app_length. simpl. lia. } { eapply rch_snoc; eauto. }
    rewrite <- app_assoc in Hl1, Hr1. cbn [app] in Hl1, Hr1. set (b1 := u ++ negb b :: v') in *.
    assert (Hne : b0 <> b1).
    { rewrite E0. unfold b1. intros E. apply app_inv_head in E. injection E as E _. destruct b; discriminate. }
    assert (Hn1 : num b1 < 2 ^ d) by (rewrite <- Hl1; apply num_lt).
    assert (Honly : forall c, length c = d -> rch c -> c = b0 \/ c = b1).
    { intros c Hc Hrc. destruct (list_eq_dec Bool.bool_dec c b0); auto. destruct (list_eq_dec Bool.bool_dec c b1); auto. exfalso.
      assert (Hsub : incl [num b0; num b1; num c] R) by (intros l [<-|[<-|[<-|[]]]]; apply Hall, rch_reachable; auto).
      apply NoDup_incl_length in Hsub; [simpl in Hsub; lia|].
      assert (I : forall a b, length a = d -> length b = d -> a <> b -> num a <> num b) by (intros a c' Ha Hb Hab E; apply Hab, num_inj; congruence).
      constructor; [|constructor; [|constructor; [simpl; tauto|constructor]]]; simpl.
      - intros [E|[E|[]]]; [apply (I b0 b1)|apply (I c b0)]; auto.
      - intros [E|[]]. apply (I c b1); auto. }
    (* at the other nodes of the two trails all candidates agree *)
    assert (Hagree : forall bb other c, (bb = b0 /\ other = b1 /\ c = b) \/ (bb = b1 /\ other = b0 /\ c = negb b) ->
      forall n' b' nd' k, In (n', b') (trail 0 bb) -> n' <> pos 0 u -> nth_error nodes n' = Some nd' -> In k (n_cands nd') -> L k = b').
    { intros bb other c Hcase n' b' nd' k Hin Hn' Hnd Hk. destruct (Bool.bool_dec (L k) b') as [|Hd]; auto. exfalso.
      assert (Hrb : rch bb /\ length bb = d) by (destruct Hcase as [(-> & _)|(-> & _)]; auto). destruct Hrb as [Hrb Hlb].
      apply trail_split in Hin. destruct Hin as (u' & w & Ebb & En').
      assert (Hu' : rch u') by (apply (rch_prefix u' (b' :: w)); rewrite <- Ebb; auto).
      destruct (rch_extend (d - S (length u')) (u' ++ [negb b'])) as (w' & Hl2 & Hr2).
      { rewrite app_length. rewrite Ebb, app_length in Hlb. simpl in *. lia. }
      { eapply rch_snoc; eauto. destruct (L k), b'; auto; congruence. }
      rewrite <- app_assoc in Hl2, Hr2. cbn [app] in Hl2, Hr2.
      assert (Hnb : u' ++ negb b' :: w' <> bb).
      { rewrite Ebb. intros E. apply app_inv_head in E. injection E as E _. destruct b'; discriminate. }
      assert (Ho : u' ++ negb b' :: w' = other).
      { destruct (Honly _ Hl2 Hr2) as [E|E]; destruct Hcase as [(-> & -> & _)|(-> & -> & _)]; congruence. }
      apply Hn'. rewrite En'. f_equal. destruct Hcase as [(E2 & E3 & _)|(E2 & E3 & _)].
      - rewrite E2, E0 in Ebb. rewrite E3 in Ho. unfold b1 in Ho. eapply (diverge_once u' u b' b w v w' v'); auto.
      - rewrite E2 in Ebb. rewrite E3, E0 in Ho. unfold b1 in Ebb. eapply (diverge_once u' u b' (negb b) w v' w' v); rewrite ?Bool.negb_involutive; auto. }
    assert (Hab : forall c w, length (u ++ c :: w) = d -> above (pos 0 u) (num (u ++ c :: w))).
    { intros c w Hlen. unfold above. rewrite (create_leaf_bits d _ Hlen). cbn [l_left l_right]. apply (Permutation_in _ (Permutation_sym (sides_perm _))).
      apply in_map_iff. exists (pos 0 u, c). split; auto. apply trail_split. eauto. }
    assert (Hfol : forall bb c w p, bb = u ++ c :: w -> length bb = d -> ((bb = b0 /\ c = b) \/ (bb = b1 /\ c = negb b)) -> In p paths -> p_leaf p = num bb ->
      fol p = uses_at (pos 0 u) (fun k => Bool.eqb (L k) c) p).
    { intros bb c w p Ebb Hlen Hcase Hp El. destruct (path_split p (pos 0 u) Hp) as [k Hc]; [rewrite El, Ebb; apply Hab; rewrite <- Ebb; auto|].
      rewrite (uses_at_iff _ _ p k Hp Hc).
      destruct (Bool.eqb (L k) c) eqn:Eb.
      - apply Bool.eqb_prop in Eb. apply (fol_intro p bb Hp Hlen (eq_sym El)). intros n' b' k' Hin Hc'.
        destruct (Nat.eq_dec n' (pos 0 u)) as [->|Hn'].
        + assert (k' = k) by (eapply choice_once; eauto). subst k'. rewrite Eb. apply (trail_functional bb (pos 0 u)); auto.
          apply trail_split. eauto.
        + destruct (path_proper p Hp) as [_ Hu2]. destruct (Hu2 n' k' Hc') as (nd' & Hnd & Hk').
          destruct Hcase as [[-> ->]|[-> ->]].
          * eapply (Hagree b0 b1 b); eauto. 
          * eapply (Hagree b1 b0 (negb b)); eauto.
      - apply not_true_is_false. intros Hf. rewrite (fol_bits p bb Hp Hlen (eq_sym El)) in Hf. specialize (Hf _ _ Hc).
        assert (L k = c); [|subst c; rewrite Bool.eqb_reflx in Eb; discriminate]. apply (trail_functional bb (pos 0 u)); auto.
        apply trail_split. eauto. }
    assert (E : (qsum (fun p => if fol p then x (p_id p) else 0) paths ==
       qsum (fun p => (if (p_leaf p =? num b0) && uses_at (pos 0 u) (fun k => Bool.eqb (L k) b) p then x (p_id p) else 0) +
                      (if (p_leaf p =? num b1) && uses_at (pos 0 u) (fun k => Bool.eqb (L k) (negb b)) p then x (p_id p) else 0)) paths)%Q).
    { apply qsum_ext. intros p Hp. destruct (Nat.eqb_spec (p_leaf p) (num b0)) as [El0|Hn0']; destruct (Nat.eqb_spec (p_leaf p) (num b1)) as [El1|Hn1']; cbn [andb].
      - exfalso. apply Hne. apply num_inj; congruence.
      - rewrite (Hfol b0 b v p) by auto. destruct (uses_at _ _ p); lra.
      - rewrite (Hfol b1 (negb b) v' p) by auto. destruct (uses_at _ _ p); lra.
      - destruct (fol p) eqn:Ef; [|lra]. exfalso. destruct (path_bits p Hp) as (bp & Hb1 & Hb2).
        destruct (Honly bp Hb1 (fol_rch p bp Hp Hb1 Hb2 Ef)) as [->| ->]; congruence. }
    rewrite E, qsum_plus.
    assert (A0 : above (pos 0 u) (num b0)) by (rewrite E0; apply Hab; rewrite <- E0; auto).
    assert (A1 : above (pos 0 u) (num b1)) by (apply Hab; auto).
    rewrite (split_sum _ nd _ _ En Hn0 A0), (split_sum _ nd _ _ En Hn1 A1), <- qsum_plus.
    rewrite <- (sol_leaf (num b0) Hn0).
    assert (E2 : (qsum (fun p => if p_leaf p =? num b0 then x (p_id p) else 0) paths ==
                  qsum (fun p => if (p_leaf p =? num b0) && uses_at (pos 0 u) (fun _ => true) p then x (p_id p) else 0) paths)%Q).
    { apply qsum_ext. intros p Hp. destruct (Nat.eqb_spec (p_leaf p) (num b0)) as [El|]; cbn [andb]; [|reflexivity].
      destruct (path_split p (pos 0 u) Hp) as [k Hc]; [rewrite El; auto|]. rewrite (uses_at_iff _ _ p k Hp Hc). reflexivity. }
    rewrite E2, (split_sum _ nd _ _ En Hn0 A0). apply qsum_ext. intros k _. destruct (L k), b; cbn [Bool.eqb negb]; lra.
  - assert (Hone : forall p, In p paths -> fol p = (p_leaf p =? num b0)).
    { intros p Hp. destruct (Nat.eqb_spec (p_leaf p) (num b0)) as [El|Hne].
      - apply (fol_intro p b0 Hp Hl0 (eq_sym El)). intros n b k Hin Hc. destruct (Bool.bool_dec (L k) b) as [|Hd]; auto. exfalso.
        assert (existsb turnable (trail 0 b0) = true); [|congruence]. apply existsb_exists. exists (n, b). split; auto.
        unfold turnable. cbn [fst snd]. destruct (path_proper p Hp) as [_ Hu]. destruct (Hu n k Hc) as (nd & -> & Hk). apply existsb_exists.
        exists k. split; auto. destruct (L k), b; auto; congruence.
      - apply not_true_is_false. intros Hf. destruct (path_bits p Hp) as (bp & Hb1 & Hb2). pose proof (fol_rch p bp Hp Hb1 Hb2 Hf) as Hrb.
        destruct (diverge b0 bp) as (u & c & v & w & E0 & E1); [congruence|intros ->; congruence|].
        destruct (Hrb (pos 0 u) (negb c)) as (nd & k & Hn & Hk & Lk); [apply trail_split; eauto|].
        assert (existsb turnable (trail 0 b0) = true); [|congruence]. apply existsb_exists. exists (pos 0 u, c). split; [apply trail_split; eauto|].
        unfold turnable. cbn [fst snd]. rewrite Hn. apply existsb_exists. exists k. split; auto. rewrite Lk. apply Bool.eqb_reflx. }
    rewrite <- (sol_leaf (num b0) Hn0). apply qsum_ext. intros p Hp. rewrite (Hone p Hp). reflexivity.
Qed.
End Two.
End Sol.

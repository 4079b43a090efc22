(** Solutions of the tree master problem: prediction, accuracy and the dual bound. *)
From Verif Require Import Base Lp LpProofs SpecDual DualProofs TreeModel SpecTree TreeGeoProofs TreePathProofs TreeLpBuild TreeInvProofs TreeFormProofs
  TreeBuildProofs SpecTreeRun TreeRunProofs TreeMasterProofs SpecTreeLp TreeLpProofs.
Open Scope nat_scope.

Lemma create_leaf_length l d : l < 2 ^ d -> length (l_left (create_leaf l d) ++ l_right (create_leaf l d)) = d.
Proof.
  intros H. destruct (leaf_bits d l H) as (bits & H1 & H2 & _). rewrite <- H2, (create_leaf_bits d bits H1). cbn [l_left l_right].
  rewrite sides_length. exact H1.
Qed.

(** * Prediction *)

Lemma tree_path_core d splits splits' p : length splits' = length splits -> tree_path d splits p -> tree_path d splits' p.
Proof. unfold tree_path. intros ->. auto. Qed.

Lemma predict_code_tree d splits tree sel xr : fits splits xr -> Forall (tree_path d splits) sel -> Forall (agrees tree) sel ->
  predict_code xr (complete_leaves d) splits sel = Ok (leaf_target sel (tree_leaf d splits tree xr)).
Proof.
  intros Hf Hp Ha. unfold leaf_target. induction sel as [|p ps IH]; [reflexivity|]. inversion Hp as [|? ? Hp1 Hp2]; inversion Ha as [|? ? Ha1 Ha2]; subst.
  cbn [predict_code find]. unfold getitem. rewrite complete_leaves_nth by apply Hp1. cbn [bind].
  pose proof (tree_path_lengths d splits p Hp1) as [L1 L2].
  rewrite row_satisfies_path_ok by (first [assumption|congruence|apply Hp1]). cbn [bind].
  assert (E : followsb (create_leaf (p_leaf p) d) (goes_left splits xr) p = (p_leaf p =? tree_leaf d splits tree xr)).
  { apply eq_true_iff_eq. rewrite followsb_iff, Nat.eqb_eq, (follows_tree d splits p Hp1 tree _ Ha1). unfold tree_leaf. intuition. }
  rewrite E. destruct (p_leaf p =? tree_leaf d splits tree xr); auto.
Qed.

Lemma core_fits splits splits' xr : Forall2 same_core splits' splits -> fits splits xr -> fits splits' xr.
Proof.
  intros Hc H s Hs. apply In_nth_error in Hs. destruct Hs as [i Hi]. destruct (Forall2_nth_error _ _ _ _ _ Hc Hi) as (t & Hi' & Hst).
  destruct Hst as (_ & Hfe & _). rewrite Hfe. apply H. eapply nth_error_In; eauto.
Qed.
Lemma predict_code_core d splits splits' tree sel xr : Forall2 same_core splits' splits -> fits splits xr ->
  Forall (tree_path d splits) sel -> Forall (agrees tree) sel ->
  predict_code xr (complete_leaves d) splits' sel = Ok (leaf_target sel (tree_leaf d splits tree xr)).
Proof.
  intros Hc Hf Hp Ha. rewrite (predict_code_tree d splits' tree sel xr); auto.
  - do 2 f_equal. unfold tree_leaf, leaf_reached. f_equal. generalize 0. clear - Hc. induction d as [|d IH]; intros i; cbn [route]; auto.
    rewrite (same_core_left _ _ xr (tree i) Hc). apply IH.
  - eapply core_fits; eauto.
  - eapply Forall_impl; [|exact Hp]. intros a Ht. eapply (tree_path_core d splits); [eapply Forall2_length'; exact Hc|exact Ht].
Qed.
Lemma predict_core {L} (classes : list L) d splits splits' tree sel Xs : Forall2 same_core splits' splits ->
  Forall (fits splits) Xs -> Forall (tree_path d splits) sel -> Forall (agrees tree) sel ->
  predict classes (complete_leaves d) splits' sel Xs =
  map_res (fun xr => decode classes (leaf_target sel (tree_leaf d splits tree xr))) Xs.
Proof.
  intros Hc Hf Hp Ha. unfold predict.
  assert (G : map_res (fun x => predict_code x (complete_leaves d) splits' sel) Xs = Ok (map (fun xr => leaf_target sel (tree_leaf d splits tree xr)) Xs)).
  { induction Hf as [|xr Xs Hx _ IH]; [reflexivity|]. cbn [map_res map]. rewrite (predict_code_core d splits splits' tree sel xr) by auto.
    cbn [bind]. rewrite IH. reflexivity. }
  rewrite G. cbn [bind]. clear. induction Xs as [|xr Xs IH]; [reflexivity|]. cbn [map map_res]. rewrite IH. reflexivity.
Qed.

(** * Weights *)

Lemma sum_list (w : nat -> Q) n (b : nat -> bool) (P : nat -> Prop) v : (forall r, P r <-> r < n /\ b r = true) ->
  ((exists rs, NoDup rs /\ (v == qsum w rs)%Q /\ forall r, In r rs <-> P r) <-> (v == qsum (fun r => if b r then w r else 0) (seq 0 n))%Q).
Proof.
  intros HP.
  assert (E : forall rs, NoDup rs -> (forall r, In r rs <-> P r) -> (qsum w rs == qsum (fun r => if b r then w r else 0) (seq 0 n))%Q).
  { intros rs Hn Hin. rewrite <- qsum_filter. apply qsum_perm. apply NoDup_Permutation; auto.
    - apply NoDup_filter, seq_NoDup.
    - intros r. rewrite Hin, HP, filter_In, in_seq. intuition lia. }
  split.
  - intros (rs & Hn & -> & Hin). auto.
  - intros Hv. exists (filter b (seq 0 n)). split; [apply NoDup_filter, seq_NoDup|]. split.
    + rewrite qsum_filter. exact Hv.
    + intros r. rewrite HP, filter_In, in_seq. intuition lia.
Qed.

Section Weight.
Variable u : setup.
Variable w : nat -> Q.
Let X := su_X u.
Let d := su_depth u.
Let splits := su_splits u.

Definition hit (r : nat) (t : Z) : bool := match nth_error (su_y u) r with Some c => Z.eqb t (Z.of_nat c) | None => false end.
Lemma hit_iff r t : hit r t = true <-> exists c, nth_error (su_y u) r = Some c /\ t = Z.of_nat c.
Proof.
  unfold hit. destruct (nth_error (su_y u) r) as [c|]; [rewrite Z.eqb_eq|]; split.
  - eauto.
  - intros (c' & E & ->). congruence.
  - discriminate.
  - intros (c' & E & _). discriminate.
Qed.
Definition counted (p : path) (r : nat) : bool := covb X (su_leaves u) splits (KRow r) p && hit r (p_target p).
Lemma counts_sum p : counts_rows u w p <-> (p_cost p == qsum (fun r => if counted p r then w r else 0) (seq 0 (length X)))%Q.
Proof.
  unfold counts_rows. apply sum_list. intros r. unfold counted. rewrite andb_true_iff, covb_iff, hit_iff. cbn [covers]. split.
  - intros (c & H1 & H2 & xr & lf & H3 & H4). split; [apply nth_error_Some; unfold X; congruence|]. split; eauto 6.
  - intros (_ & H1 & c & H2 & H3). eauto.
Qed.
Definition correct (code : sample -> Z) (r : nat) : bool := match nth_error X r with Some xr => hit r (code xr) | None => false end.
Lemma correct_sum code v : correct_weight u w code v <-> (v == qsum (fun r => if correct code r then w r else 0) (seq 0 (length X)))%Q.
Proof.
  unfold correct_weight. apply sum_list. intros r. unfold correct. split.
  - intros (xr & c & H1 & H2 & H3). split; [apply nth_error_Some; unfold X; congruence|]. unfold X. rewrite H1. apply hit_iff. eauto.
  - unfold X. intros (Hr & H). destruct (nth_error (su_X u) r) as [xr|]; [|discriminate]. apply hit_iff in H. destruct H as (c & H1 & H2). eauto.
Qed.

Lemma leaf_target_in sel p : NoDup (map p_leaf sel) -> In p sel -> leaf_target sel (p_leaf p) = p_target p.
Proof.
  unfold leaf_target. induction sel as [|q sel IH]; intros Hn Hin; [contradiction|]. cbn [find]. simpl in Hn. inversion Hn as [|? ? Hni Hn']; subst.
  destruct (Nat.eqb_spec (p_leaf q) (p_leaf p)) as [E|E].
  - destruct Hin as [->|Hin]; auto. exfalso. apply Hni. rewrite E. apply in_map. auto.
  - destruct Hin as [->|Hin]; [congruence|]. auto.
Qed.

(** The total cost of the paths of a decision tree is the weight of the rows it classifies correctly. *)
Lemma tree_weight tree sel : Permutation (map p_leaf sel) (seq 0 (2 ^ d)) -> Forall (tree_path d splits) sel -> Forall (agrees tree) sel ->
  Forall (counts_rows u w) sel ->
  correct_weight u w (fun xr => leaf_target sel (tree_leaf d splits tree xr)) (qsum p_cost sel).
Proof.
  intros Hperm Hp Ha Hc. rewrite correct_sum. rewrite Forall_forall in Hc.
  assert (Hnl : NoDup (map p_leaf sel)) by (eapply Permutation_NoDup; [apply Permutation_sym; eauto|apply seq_NoDup]).
  assert (Hnd : NoDup sel) by (apply (NoDup_map_inv' p_leaf); auto).
  transitivity (qsum (fun p => qsum (fun r => if counted p r then w r else 0) (seq 0 (length X))) sel)%Q.
  { apply qsum_ext. intros p Hin. apply counts_sum. auto. }
  rewrite qsum_swap. apply qsum_ext. intros r Hr. apply in_seq in Hr.
  destruct (nth_error X r) as [xr|] eqn:Ex; [|apply nth_error_None in Ex; lia]. unfold correct. rewrite Ex.
  destruct (tree_row_one d splits tree (goes_left splits xr) sel Hperm Hp Ha) as (p & Hin & El & Hu).
  fold (tree_leaf d splits tree xr) in El. rewrite <- El, (leaf_target_in sel p Hnl Hin).
  assert (Hcov : forall q, In q sel -> (covb X (su_leaves u) splits (KRow r) q = true <-> q = p)).
  { intros q Hq. rewrite covb_iff, <- (Hu q Hq). cbn [covers]. rewrite Forall_forall in Hp. pose proof (Hp q Hq) as [Hl _].
    unfold su_leaves. fold d. rewrite (complete_leaves_nth _ _ Hl), Ex. split.
    - intros (x' & lf & E1 & E2 & H). injection E1 as <-. injection E2 as <-. exact H.
    - intros H. eauto 6. }
  rewrite (qsum_single path_eq_dec _ sel p); auto.
  - unfold counted. rewrite (proj2 (Hcov p Hin) eq_refl). reflexivity.
  - intros q Hq Hne. unfold counted. destruct (covb X (su_leaves u) splits (KRow r) q) eqn:E; [|reflexivity]. apply Hcov in E; auto. contradiction.
Qed.

(** The paths of a decision tree with given leaf classes. *)
Definition tree_paths (tree : nat -> nat) (lab : nat -> Z) : list path :=
  map (fun l => let ns := l_left (create_leaf l d) ++ l_right (create_leaf l d) in
                let p := mkPath l ns (map tree ns) 0 l (lab l) true in
                mkPath l ns (map tree ns) (qsum (fun r => if counted p r then w r else 0%Q) (seq 0 (length X))) l (lab l) true) (seq 0 (2 ^ d)).
Lemma tree_paths_leaves tree lab : map p_leaf (tree_paths tree lab) = seq 0 (2 ^ d).
Proof. unfold tree_paths. rewrite map_map. cbn zeta. cbn [p_leaf]. apply map_id. Qed.
Lemma combine_map_r {A B} (f : A -> B) l a b : In (a, b) (combine l (map f l)) -> b = f a /\ In a l.
Proof. induction l as [|c l IH]; simpl; [tauto|]. intros [E|H]; [injection E as <- <-; auto|]. destruct (IH H); auto. Qed.
Lemma tree_paths_ok tree lab : wf_tree d X (su_nodes u) splits -> tree_over d (su_nodes u) tree ->
  Forall (fun p => tree_path d splits p /\ uses_candidates (su_nodes u) p /\ agrees tree p /\ counts_rows u w p /\ p_target p = lab (p_leaf p))
    (tree_paths tree lab).
Proof.
  intros wf Ht. apply Forall_forall. intros p Hin. unfold tree_paths in Hin. apply in_map_iff in Hin. destruct Hin as (l & Ep & Hl).
  apply in_seq in Hl. cbn zeta in Ep. set (ns := l_left (create_leaf l d) ++ l_right (create_leaf l d)) in *.
  assert (Hl' : l < 2 ^ d) by lia.
  assert (Hns : forall n, In n ns -> exists nd, nth_error (su_nodes u) n = Some nd /\ In (tree n) (n_cands nd)).
  { intros n Hn. assert (Hlt : n < 2 ^ d - 1) by (apply (create_leaf_nodes l d Hl'); auto). destruct (wt_nodes _ _ _ _ wf) as [Hlen _].
    destruct (nth_error_some_lt (su_nodes u) n) as [nd Hnd]; [lia|]. exists nd. split; auto. }
  subst p. split; [|split; [|split; [|split]]].
  - split; [exact Hl'|]. cbn [p_leaf p_nodes p_splits]. fold ns. split; [reflexivity|]. split.
    + rewrite map_length. apply create_leaf_length. auto.
    + apply Forall_forall. intros k Hk. apply in_map_iff in Hk. destruct Hk as (n & <- & Hn). destruct (Hns n Hn) as (nd & Hnd & Hc).
      pose proof (wt_cands _ _ _ _ wf nd (nth_error_In _ _ Hnd)) as [_ Hf]. rewrite Forall_forall in Hf. auto.
  - intros n k Hc. unfold choices in Hc. cbn [p_nodes p_splits] in Hc. apply combine_map_r in Hc. destruct Hc as [-> Hn]. auto.
  - intros n k Hc. unfold choices in Hc. cbn [p_nodes p_splits] in Hc. apply combine_map_r in Hc. apply Hc.
  - apply counts_sum. cbn [p_cost]. reflexivity.
  - reflexivity.
Qed.
End Weight.

(** * The dual bound *)

Lemma sum_kinds {A B} (F : nat -> A -> Q) (G : nat -> B -> Q) : forall (l : list A) (m : list B) n, length l = length m ->
  (forall i a b, nth_error l i = Some a -> nth_error m i = Some b -> F (n + i)%nat a == G (n + i)%nat b)%Q ->
  (qsum (fun ck => F (fst ck) (snd ck)) (combine (seq n (length l)) l) == qsum (fun ck => G (fst ck) (snd ck)) (combine (seq n (length m)) m))%Q.
Proof.
  induction l as [|a l IH]; intros [|b m] n Hl H; try discriminate; [reflexivity|]. cbn [length seq combine]. rewrite !qsum_cons. cbn [fst snd].
  apply Qplus_comp.
  - specialize (H 0 a b eq_refl eq_refl). rewrite Nat.add_0_r in H. exact H.
  - apply IH.
    + simpl in Hl. lia.
    + intros i a' b' Ha Hb. specialize (H (S i) a' b' Ha Hb). rewrite Nat.add_succ_r in H. exact H.
Qed.
Lemma in_indexed {A} (l : list A) i a : In (i, a) (combine (seq 0 (length l)) l) <-> nth_error l i = Some a.
Proof.
  split; intros H.
  - apply in_combine_seq in H. destruct H as [_ H]. rewrite Nat.sub_0_r in H. exact H.
  - assert (G : forall (l : list A) n i, nth_error l i = Some a -> nth_error (combine (seq n (length l)) l) i = Some (n + i, a)).
    { clear. induction l as [|b l IH]; intros n [|i] E; simpl in *; try discriminate.
      - injection E as ->. rewrite Nat.add_0_r. reflexivity.
      - rewrite (IH (S n) i E). rewrite Nat.add_succ_r. reflexivity. }
    apply (nth_error_In _ i). apply (G l 0 i H).
Qed.
Lemma map_fst_indexed {A} (l : list A) n : map fst (combine (seq n (length l)) l) = seq n (length l).
Proof. revert n. induction l as [|a l IH]; intros n; simpl; [auto|]. rewrite IH. auto. Qed.

Section Bound.
Variable u : setup.
Variable w : nat -> Q.
Hypothesis wf : wf_tree (su_depth u) (su_X u) (su_nodes u) (su_splits u).
Variables (paths : list path) (rws : list nat) (cuts : list (list bool)) (kinds : list ckind) (cv : nat -> nat -> nat) (m : lp).
Let d := su_depth u.
Let cov := covb (su_X u) (su_leaves u) (su_splits u).
Hypothesis F : formulation (su_X u) (su_leaves u) (su_nodes u) (su_splits u) paths rws cuts kinds cv m.
Variable pi : nat -> Q.

Let total (g : nat -> ckind -> Q) : Q := qsum (fun ck => g (fst ck) (snd ck)) (combine (seq 0 (length kinds)) kinds).
Lemma kinds_len : length kinds = length (lp_cons m).
Proof. apply (Forall2_length' _ _ _ (fm_cons _ _ _ _ _ _ _ _ _ _ F)). Qed.

Lemma price_total p : exists v, path_price u kinds pi p v /\ (v == p_cost p - total (fun i c => if cov c p then pi i else 0))%Q.
Proof.
  set (L := filter (fun ck => cov (snd ck) p) (combine (seq 0 (length kinds)) kinds)).
  exists (p_cost p - qsum pi (map fst L))%Q. split.
  - exists (map fst L). split; [|split; [|reflexivity]].
    + unfold L. assert (H : NoDup (map fst (combine (seq 0 (length kinds)) kinds))) by (rewrite map_fst_indexed; apply seq_NoDup).
      clear - H. induction (combine (seq 0 (length kinds)) kinds) as [|[i c] l IH]; simpl in *; [constructor|]. inversion H; subst.
      destruct (cov c p); simpl; auto. constructor; auto. intros Hin. apply in_map_iff in Hin. destruct Hin as (q & E & Hq). apply filter_In in Hq.
      apply H2. rewrite <- E. apply in_map. apply Hq.
    + intros i. rewrite in_map_iff. split.
      * intros ([j c] & E & Hin). simpl in E. subst j. unfold L in Hin. apply filter_In in Hin. destruct Hin as [Hin Hc]. apply in_indexed in Hin.
        exists c. split; auto. apply covb_iff. exact Hc.
      * intros (c & Hc & Hcov). exists (i, c). split; auto. apply filter_In. split; [apply in_indexed; auto|]. simpl. apply covb_iff. auto.
  - rewrite qsum_map. unfold L. rewrite qsum_filter. unfold total. apply Qplus_comp; [reflexivity|]. apply Qopp_comp. apply qsum_ext.
    intros [i c] _. reflexivity.
Qed.

(** Reduced costs in the solver model: of a path's variable, of a choice variable. *)
Lemma reduced_path p : In p paths -> (reduced_cost m pi (p_id p) == p_cost p - total (fun i c => if cov c p then pi i else 0))%Q.
Proof.
  intros Hin. unfold reduced_cost. rewrite (fm_cost _ _ _ _ _ _ _ _ _ _ F p Hin). apply Qplus_comp; [reflexivity|]. apply Qopp_comp.
  unfold dual_activity, num_cons, total.
  apply (sum_kinds (fun i q => pi i * c_coef q (p_id p))%Q (fun i c => if cov c p then pi i else 0)%Q); [symmetry; apply kinds_len|].
  intros i q c Hq Hc. destruct (Forall2_nth_error _ _ _ _ _ (fm_cons _ _ _ _ _ _ _ _ _ _ F) Hc) as (q' & Hq' & _ & Hp & _).
  assert (q' = q) by congruence. subst q'. destruct (Hp p Hin) as [P1 P2]. rewrite <- covb_iff in P1, P2. unfold cov.
  destruct (covb (su_X u) (su_leaves u) (su_splits u) c p).
  - rewrite P1 by reflexivity. cbn [Nat.add]. lra.
  - rewrite P2 by discriminate. cbn [Nat.add]. lra.
Qed.
Lemma reduced_choice l n k : In (KChoice l n k) kinds ->
  (reduced_cost m pi (cv n k) == total (fun i c => match c with KChoice _ n' k' => if (n' =? n) && (k' =? k) then pi i else 0 | _ => 0 end))%Q.
Proof.
  intros Hl. unfold reduced_cost. rewrite (fm_choice_cost _ _ _ _ _ _ _ _ _ _ F _ _ _ Hl).
  assert (E : (dual_activity m pi (cv n k) == - total (fun i c => match c with KChoice _ n' k' => if (n' =? n) && (k' =? k) then pi i else 0 | _ => 0 end))%Q).
  { transitivity (total (fun i c => - match c with KChoice _ n' k' => if (n' =? n) && (k' =? k) then pi i else 0 | _ => 0 end)%Q).
    - unfold dual_activity, num_cons, total.
      apply (sum_kinds (fun i q => pi i * c_coef q (cv n k))%Q (fun i c => - match c with KChoice _ n' k' => if (n' =? n) && (k' =? k) then pi i else 0 | _ => 0 end)%Q);
        [symmetry; apply kinds_len|].
      intros i q c Hq Hc. destruct (Forall2_nth_error _ _ _ _ _ (fm_cons _ _ _ _ _ _ _ _ _ _ F) Hc) as (q' & Hq' & _ & _ & Hcoef).
      assert (q' = q) by congruence. subst q'. rewrite (Hcoef l n k Hl). destruct c as [l'|r|z|l' n' k']; try lra.
      destruct ((n' =? n) && (k' =? k)); lra.
    - unfold total. set (ks := combine (seq 0 (length kinds)) kinds).
      set (g := fun ck : nat * ckind => match snd ck with KChoice _ n' k' => if (n' =? n) && (k' =? k) then pi (fst ck) else 0%Q | _ => 0%Q end).
      transitivity (qsum (fun ck => (-1) * g ck)%Q ks); [apply qsum_ext; intros; unfold g; ring|]. rewrite qsum_scale. unfold g. ring. }
  rewrite E. ring.
Qed.

Variable tau : Q.
Hypothesis K : near_dual m pi tau.

Lemma var_red j : j < num_vars m -> (reduced_cost m pi j <= tau)%Q.
Proof.
  intros Hj. destruct (nth_error_some_lt (lp_vars m) j Hj) as [v Hv]. destruct K as [KV _]. specialize (KV j v Hv).
  rewrite (fm_vars _ _ _ _ _ _ _ _ _ _ F v (nth_error_In _ _ Hv)), (fm_max _ _ _ _ _ _ _ _ _ _ F) in KV. cbn [v_lb v_ub] in KV.
  destruct KV as [_ P2]. specialize (P2 eq_refl). lra.
Qed.

(** What a constraint contributes to the dual objective. *)
Definition dual_part (i : nat) (c : ckind) : Q :=
  match c with KChoice _ _ _ => 0%Q | KRow _ => if Qltb 0 (- pi i) then 0%Q else pi i | _ => pi i end.
Lemma dual_parts : (dual_value m pi == total dual_part)%Q.
Proof.
  unfold dual_value. rewrite (fm_offset _ _ _ _ _ _ _ _ _ _ F), (fm_max _ _ _ _ _ _ _ _ _ _ F).
  rewrite qsum_zero.
  - assert (E : (qsum (fun ck => pi (fst ck) * bound_of true (pi (fst ck)) (c_lb (snd ck)) (c_ub (snd ck))) (combine (seq 0 (num_cons m)) (lp_cons m)) == total dual_part)%Q).
    { unfold total, num_cons. apply (sum_kinds (fun i k => pi i * bound_of true (pi i) (c_lb k) (c_ub k))%Q dual_part); [symmetry; apply kinds_len|].
      intros i k c Hk Hc. destruct (Forall2_nth_error _ _ _ _ _ (fm_cons _ _ _ _ _ _ _ _ _ _ F) Hc) as (k' & Hk' & Hb & _).
      assert (k' = k) by congruence. subst k'. cbn [Nat.add]. unfold bound_of, dual_part.
      destruct c as [l|r|z|l n q]; cbn [kind_bounds] in Hb; injection Hb as E1 E2; rewrite E1, E2; destruct (Qltb 0 (- pi i)); lra. }
    rewrite E. lra.
  - intros [j v] Hj. apply in_combine_seq in Hj. rewrite Nat.sub_0_r in Hj. destruct Hj as [_ Hj]. cbn [fst snd].
    rewrite (fm_vars _ _ _ _ _ _ _ _ _ _ F v (nth_error_In _ _ Hj)). unfold bound_of. cbn [v_lb v_ub]. destruct (Qltb _ _); lra.
Qed.
Lemma row_part i r : (pi i <= dual_part i (KRow r))%Q /\ (0 <= dual_part i (KRow r))%Q.
Proof. unfold dual_part. destruct (Qltb 0 (- pi i)) eqn:E; [apply Qltb_true in E|apply Qltb_false in E]; lra. Qed.

Lemma choice_price n k : (exists l, In (KChoice l n k) kinds) ->
  (total (fun i c => match c with KChoice _ n' k' => if (n' =? n) && (k' =? k) then pi i else 0 | _ => 0 end) <= tau)%Q.
Proof.
  intros [l Hl]. destruct (fm_choice_vars _ _ _ _ _ _ _ _ _ _ F _ _ _ Hl) as [Hj _]. pose proof (var_red _ Hj) as Hr.
  rewrite (reduced_choice l n k Hl) in Hr. exact Hr.
Qed.

Lemma tree_bound eps tree lab v :
  (forall p q, tree_path d (su_splits u) p -> uses_candidates (su_nodes u) p -> counts_rows u w p -> path_price u kinds pi p q -> (q <= eps)%Q) ->
  tree_over d (su_nodes u) tree -> correct_weight u w (fun xr => lab (tree_leaf d (su_splits u) tree xr)) v ->
  (v <= dual_value m pi + inject_Z (Z.of_nat (2 ^ d)) * eps + inject_Z (Z.of_nat (2 ^ d - 1)) * tau)%Q.
Proof.
  intros Hprice Ht Hv. set (sel := tree_paths u w tree lab). pose proof (tree_paths_ok u w tree lab wf Ht) as Hok. fold sel in Hok.
  assert (Hperm : Permutation (map p_leaf sel) (seq 0 (2 ^ d))) by (unfold sel; rewrite tree_paths_leaves; reflexivity).
  assert (Hnl : NoDup (map p_leaf sel)) by (eapply Permutation_NoDup; [apply Permutation_sym; eauto|apply seq_NoDup]).
  assert (Hlen : length sel = 2 ^ d) by (rewrite <- (map_length p_leaf), (Permutation_length Hperm); apply seq_length).
  assert (Hp : Forall (tree_path d (su_splits u)) sel) by (eapply Forall_impl; [|exact Hok]; intros p Hq; apply Hq).
  assert (Ha : Forall (agrees tree) sel) by (eapply Forall_impl; [|exact Hok]; intros p Hq; apply Hq).
  assert (Hc : Forall (counts_rows u w) sel) by (eapply Forall_impl; [|exact Hok]; intros p Hq; apply Hq).
  pose proof (tree_weight u w tree sel Hperm Hp Ha Hc) as Hw. apply correct_sum in Hw. apply correct_sum in Hv. rewrite Forall_forall in Hok.
  assert (Ev : (v == qsum p_cost sel)%Q).
  { rewrite Hv, Hw. apply qsum_ext. intros r Hr. unfold correct. destruct (nth_error (su_X u) r) as [xr|]; [|reflexivity].
    assert (E : leaf_target sel (tree_leaf (su_depth u) (su_splits u) tree xr) = lab (tree_leaf d (su_splits u) tree xr)).
    { assert (Hin : In (tree_leaf d (su_splits u) tree xr) (map p_leaf sel)).
      { apply (Permutation_in _ (Permutation_sym Hperm)). apply in_seq. pose proof (leaf_reached_lt d (fun n => goes_left (su_splits u) xr (tree n))). unfold tree_leaf. lia. }
      apply in_map_iff in Hin. destruct Hin as (p & E & Hin). fold d. rewrite <- E, (leaf_target_in sel p Hnl Hin). apply Hok. auto. }
    rewrite E. reflexivity. }
  assert (Hsum : (qsum p_cost sel <= inject_Z (Z.of_nat (2 ^ d)) * eps + qsum (fun p => total (fun i c => if cov c p then pi i else 0)) sel)%Q).
  { rewrite <- Hlen, <- (qsum_const eps sel), <- qsum_plus. apply qsum_le. intros p Hin. destruct (price_total p) as (q & Hq & E).
    destruct (Hok p Hin) as (H1 & H2 & _ & H3 & _). pose proof (Hprice p q H1 H2 H3 Hq). lra. }
  assert (Hswap : (qsum (fun p => total (fun i c => if cov c p then pi i else 0)) sel ==
                   total (fun i c => qsum (fun p => if cov c p then pi i else 0) sel))%Q) by (unfold total; apply qsum_swap).
  (* per constraint: leaf, row and cut constraints hold one path, choice constraints one if the tree uses the split *)
  assert (Hone : forall i (b : path -> bool) q, In q sel -> (forall p, In p sel -> (b p = true <-> p = q)) -> (qsum (fun p => if b p then pi i else 0) sel == pi i)%Q).
  { intros i b q Hq Hb. rewrite (qsum_single path_eq_dec _ sel q); auto.
    - rewrite (proj2 (Hb q Hq) eq_refl). reflexivity.
    - apply (NoDup_map_inv' p_leaf). auto.
    - intros p Hin Hne. destruct (b p) eqn:E; [|reflexivity]. apply Hb in E; auto. contradiction. }
  assert (Hleaf : forall l, l < 2 ^ d -> exists q, In q sel /\ p_leaf q = l /\ forall p, In p sel -> (p_leaf p = l <-> p = q)).
  { intros l Hl. assert (Hin : In l (map p_leaf sel)) by (apply (Permutation_in _ (Permutation_sym Hperm)), in_seq; lia).
    apply in_map_iff in Hin. destruct Hin as (q & <- & Hq). exists q. split; auto. split; auto. intros p Hpin. split; [|congruence].
    intros E. clear - Hnl Hq Hpin E. induction sel as [|a ps IH]; [contradiction|]. simpl in Hnl. inversion Hnl as [|? ? Hni Hd']; subst.
    destruct Hpin as [->|Hpin], Hq as [->|Hq]; auto; exfalso; apply Hni.
    + rewrite E. apply in_map. auto.
    + rewrite <- E. apply in_map. auto. }
  assert (Hcons : forall i c, nth_error kinds i = Some c -> (qsum (fun p => if cov c p then pi i else 0) sel <=
      dual_part i c + qsum (fun n => match c with KChoice _ n' k' => if (n' =? n) && (k' =? tree n) then pi i else 0 | _ => 0 end) (seq 0 (2 ^ d - 1)))%Q).
  { intros i c Hi. pose proof (nth_error_In _ _ Hi) as Hin.
    assert (Hz : (match c with KChoice _ _ _ => False | _ => True end) -> (qsum (fun n => match c with KChoice _ n' k' => if (n' =? n) && (k' =? tree n) then pi i else 0 | _ => 0 end) (seq 0 (2 ^ d - 1)) == 0)%Q).
    { intros Hk. apply qsum_zero. intros n _. destruct c; try reflexivity. contradiction. }
    destruct c as [l|r|z|l n k]; cbn [dual_part].
    - rewrite (Hz I). apply (fm_leaves _ _ _ _ _ _ _ _ _ _ F) in Hin. unfold su_leaves in Hin. rewrite complete_leaves_length in Hin.
      destruct (Hleaf l Hin) as (q & Hq & _ & Hu). rewrite (Hone i (cov (KLeaf l)) q Hq).
      + lra.
      + intros p Hpin. rewrite <- (Hu p Hpin). unfold cov. rewrite covb_iff. reflexivity.
    - rewrite (Hz I). pose proof (row_part i r) as [Hge Hpos]. unfold dual_part in Hge, Hpos.
      destruct (nth_error (su_X u) r) as [xr|] eqn:Ex.
      + destruct (tree_row_one d (su_splits u) tree (goes_left (su_splits u) xr) sel Hperm Hp Ha) as (q & Hq & _ & Hu).
        rewrite (Hone i (cov (KRow r)) q Hq); [lra|]. intros p Hpin. rewrite <- (Hu p Hpin). unfold cov. rewrite covb_iff. cbn [covers].
        rewrite Forall_forall in Hp. pose proof (Hp p Hpin) as [Hl _]. unfold su_leaves. fold d. rewrite (complete_leaves_nth _ _ Hl), Ex. split.
        * intros (x' & lf & E1 & E2 & H). injection E1 as <-. injection E2 as <-. exact H.
        * intros H. eauto 6.
      + rewrite (qsum_zero _ sel); [lra|]. intros p _. destruct (cov (KRow r) p) eqn:E; [|reflexivity]. unfold cov in E. apply covb_iff in E.
        cbn [covers] in E. destruct E as (x' & _ & E & _). congruence.
    - rewrite (Hz I). destruct (tree_row_one d (su_splits u) tree (fun k => nth k z false) sel Hperm Hp Ha) as (q & Hq & _ & Hu).
      rewrite (Hone i (cov (KCut z)) q Hq); [lra|]. intros p Hpin. rewrite <- (Hu p Hpin). unfold cov. rewrite covb_iff. cbn [covers].
      rewrite Forall_forall in Hp. pose proof (Hp p Hpin) as [Hl _]. unfold su_leaves. fold d. rewrite (complete_leaves_nth _ _ Hl). split.
      + intros (lf & E2 & H). injection E2 as <-. exact H.
      + intros H. eauto 6.
    - apply (fm_choices _ _ _ _ _ _ _ _ _ _ F) in Hin. destruct Hin as (lf & nd & H1 & H2 & H3 & H4).
      assert (Hl : l < 2 ^ d).
      { rewrite <- (complete_leaves_length d). apply nth_error_Some. unfold su_leaves in H1. fold d in H1. congruence. }
      unfold su_leaves in H1. fold d in H1. rewrite (complete_leaves_nth _ _ Hl) in H1. injection H1 as <-.
      assert (Hn : n < 2 ^ d - 1) by (apply (create_leaf_nodes l d Hl); auto).
      destruct (Hleaf l Hl) as (q & Hq & Elq & Hu). rewrite Forall_forall in Hp, Ha.
      assert (Hch : In (n, tree n) (choices q)).
      { assert (Hin : In n (p_nodes q)).
        { destruct (Hp q Hq) as (_ & Hpm & _). apply (Permutation_in _ (Permutation_sym Hpm)). rewrite Elq. exact H2. }
        destruct (tree_path_lengths d (su_splits u) q (Hp q Hq)) as [L1 L2].
        destruct (combine_In_fst (p_nodes q) (p_splits q) n) as [k' Hk']; [congruence|auto|]. pose proof (Ha q Hq n k' Hk'). subst k'. exact Hk'. }
      rewrite (qsum_single Nat.eq_dec _ (seq 0 (2 ^ d - 1)) n); [|apply seq_NoDup|apply in_seq; lia|].
      2: { intros n' _ Hne. destruct (Nat.eqb_spec n n'); [congruence|]. reflexivity. }
      rewrite Nat.eqb_refl. cbn [andb].
      destruct (Nat.eqb_spec k (tree n)) as [->|Hne].
      + rewrite (Hone i (cov (KChoice l n (tree n))) q Hq); [lra|]. intros p Hpin. rewrite <- (Hu p Hpin). unfold cov. rewrite covb_iff. cbn [covers].
        split; [tauto|]. intros El. split; auto. rewrite (proj1 (Hu p Hpin) El). exact Hch.
      + rewrite (qsum_zero _ sel); [lra|]. intros p Hpin. destruct (cov (KChoice l n k) p) eqn:E; [|reflexivity]. unfold cov in E. apply covb_iff in E.
        cbn [covers] in E. exfalso. apply Hne. eapply Ha; [exact Hpin|apply E]. }
  assert (Htot : (total (fun i c => qsum (fun p => if cov c p then pi i else 0) sel) <=
      total dual_part +
      qsum (fun n => total (fun i c => match c with KChoice _ n' k' => if (n' =? n) && (k' =? tree n) then pi i else 0 | _ => 0 end)) (seq 0 (2 ^ d - 1)))%Q).
  { unfold total at 3. rewrite qsum_swap. unfold total. rewrite <- qsum_plus. apply qsum_le. intros [i c] Hin. apply in_indexed in Hin. cbn [fst snd]. apply Hcons. auto. }
  assert (Hneg : (qsum (fun n => total (fun i c => match c with KChoice _ n' k' => if (n' =? n) && (k' =? tree n) then pi i else 0 | _ => 0 end)) (seq 0 (2 ^ d - 1)) <= inject_Z (Z.of_nat (2 ^ d - 1)) * tau)%Q).
  { rewrite <- (seq_length (2 ^ d - 1) 0) at 2. rewrite <- (qsum_const tau (seq 0 (2 ^ d - 1))). apply qsum_le. intros n Hn. apply in_seq in Hn.
    apply choice_price. destruct (above_exists d n) as (l & Hl & Hab); [lia|]. exists l. apply (fm_choices _ _ _ _ _ _ _ _ _ _ F).
    destruct (wt_nodes _ _ _ _ wf) as [Hnn _]. destruct (nth_error_some_lt (su_nodes u) n) as [nd Hnd]; [fold d in Hnn; lia|].
    exists (create_leaf l d), nd. split; [apply complete_leaves_nth; auto|]. split; auto. split; auto. apply Ht; auto. lia. }
  rewrite Ev, dual_parts. lra.
Qed.
End Bound.

(** * Every decision tree is a solution *)

Lemma NoDup_map_inj {A B} (f : A -> B) l a b : NoDup (map f l) -> In a l -> In b l -> f a = f b -> a = b.
Proof.
  induction l as [|c ps IH]; [contradiction|]. simpl. intros Hn. inversion Hn as [|? ? Hni Hd]; subst.
  intros [->|H1] [->|H2] E; auto; exfalso; apply Hni; [rewrite E|rewrite <- E]; apply in_map; auto.
Qed.

Section Tree.
Variable u : setup.
Hypothesis wf : wf_tree (su_depth u) (su_X u) (su_nodes u) (su_splits u).
Variables (paths : list path) (rws : list nat) (cuts : list (list bool)) (kinds : list ckind) (cv : nat -> nat -> nat) (m : lp).
Let d := su_depth u.
Let cov := covb (su_X u) (su_leaves u) (su_splits u).
Hypothesis F : formulation (su_X u) (su_leaves u) (su_nodes u) (su_splits u) paths rws cuts kinds cv m.
Variables (tree : nat -> nat) (sel : list path).
Hypothesis Hsub : incl sel paths.
Hypothesis Hp : Forall (tree_path d (su_splits u)) sel.
Hypothesis Hf : forms_tree u tree sel.

Definition tree_point (j : nat) : Q :=
  if existsb (fun p => p_id p =? j) sel then 1%Q else if existsb (fun n => cv n (tree n) =? j) (seq 0 (2 ^ d - 1)) then 1%Q else 0%Q.

Lemma node_choice n : n < 2 ^ d - 1 -> exists l, In (KChoice l n (tree n)) kinds.
Proof.
  intros Hn. destruct (above_exists d n Hn) as (l & Hl & Ha). exists l. apply (fm_choices _ _ _ _ _ _ _ _ _ _ F).
  destruct (wt_nodes _ _ _ _ wf) as [Hlen _]. destruct (nth_error_some_lt (su_nodes u) n) as [nd Hnd]; [fold d in Hlen; lia|].
  exists (create_leaf l d), nd. split; [apply complete_leaves_nth; auto|]. split; auto. split; auto. destruct Hf as [Ho _]. apply (Ho n nd); auto.
Qed.
Lemma point_sel p : In p sel -> tree_point (p_id p) = 1%Q.
Proof.
  intros Hin. unfold tree_point. assert (E : existsb (fun q => p_id q =? p_id p) sel = true).
  { apply existsb_exists. exists p. rewrite Nat.eqb_refl. auto. } rewrite E. reflexivity.
Qed.
Lemma id_inj p q : In p paths -> In q paths -> p_id p = p_id q -> p = q.
Proof.
  apply NoDup_map_inj, (fm_path_ids _ _ _ _ _ _ _ _ _ _ F).
Qed.
Lemma point_unsel p : In p paths -> ~ In p sel -> tree_point (p_id p) = 0%Q.
Proof.
  intros Hin Hn. unfold tree_point. destruct (existsb (fun q => p_id q =? p_id p) sel) eqn:E.
  - apply existsb_exists in E. destruct E as (q & Hq & E). apply Nat.eqb_eq in E. apply id_inj in E; auto. subst. contradiction.
  - destruct (existsb (fun n => cv n (tree n) =? p_id p) (seq 0 (2 ^ d - 1))) eqn:E2; auto.
    apply existsb_exists in E2. destruct E2 as (n & Hn' & E2). apply in_seq in Hn'. apply Nat.eqb_eq in E2.
    destruct (node_choice n) as [l Hl]; [lia|]. apply (fm_choice_vars _ _ _ _ _ _ _ _ _ _ F) in Hl. exfalso. apply Hl. rewrite E2. apply in_map. auto.
Qed.
Lemma point_choice l n k : In (KChoice l n k) kinds -> tree_point (cv n k) = if k =? tree n then 1%Q else 0%Q.
Proof.
  intros Hk. unfold tree_point. pose proof (fm_choice_vars _ _ _ _ _ _ _ _ _ _ F l n k Hk) as [_ Hni].
  destruct (existsb (fun q => p_id q =? cv n k) sel) eqn:E.
  - apply existsb_exists in E. destruct E as (q & Hq & E). apply Nat.eqb_eq in E. exfalso. apply Hni. rewrite <- E. apply in_map. auto.
  - assert (Hn : n < 2 ^ d - 1).
    { apply (fm_choices _ _ _ _ _ _ _ _ _ _ F) in Hk. destruct Hk as (_ & nd & _ & _ & Hnd & _). destruct (wt_nodes _ _ _ _ wf) as [Hlen _].
      unfold d. rewrite <- Hlen. apply nth_error_Some. congruence. }
    destruct (Nat.eqb_spec k (tree n)) as [->|Hne].
    + assert (E2 : existsb (fun n' => cv n' (tree n') =? cv n (tree n)) (seq 0 (2 ^ d - 1)) = true).
      { apply existsb_exists. exists n. rewrite Nat.eqb_refl. split; auto. apply in_seq. lia. } rewrite E2. reflexivity.
    + destruct (existsb (fun n' => cv n' (tree n') =? cv n k) (seq 0 (2 ^ d - 1))) eqn:E2; auto.
      apply existsb_exists in E2. destruct E2 as (n' & Hn' & E2). apply in_seq in Hn'. apply Nat.eqb_eq in E2.
      destruct (node_choice n') as [l' Hl']; [lia|]. destruct (fm_choice_inj _ _ _ _ _ _ _ _ _ _ F _ _ _ _ _ _ Hl' Hk E2). subst. contradiction.
Qed.
Lemma point_solution : tree_solution d (su_splits u) tree paths tree_point.
Proof.
  exists sel. destruct Hf as (_ & Hperm & Ha). split; auto. split; auto. split; auto. split; auto. split.
  - intros p Hin. rewrite point_sel by auto. reflexivity.
  - intros p Hin Hn. rewrite point_unsel by auto. reflexivity.
Qed.

Lemma point_sum (b : path -> bool) : (exists q, In q sel /\ (forall p, In p sel -> (b p = true <-> p = q))) ->
  (qsum (fun p => if b p then tree_point (p_id p) else 0) paths == 1)%Q.
Proof.
  intros (q & Hq & Hb).
  rewrite (qsum_single path_eq_dec _ paths q); auto.
  - rewrite (proj2 (Hb q Hq) eq_refl), point_sel by auto. reflexivity.
  - apply (NoDup_map_inv' p_id), (fm_path_ids _ _ _ _ _ _ _ _ _ _ F).
  - intros p Hin Hne. destruct (b p) eqn:E; [|reflexivity]. destruct (in_dec path_eq_dec p sel) as [Hs|Hs].
    + apply Hb in E; auto. contradiction.
    + rewrite point_unsel by auto. reflexivity.
Qed.

Lemma sel_leaf_unique l : l < 2 ^ d -> exists q, In q sel /\ p_leaf q = l /\ forall p, In p sel -> (p_leaf p = l <-> p = q).
Proof.
  intros Hl. destruct Hf as (_ & Hperm & _).
  assert (Hnl : NoDup (map p_leaf sel)) by (eapply Permutation_NoDup; [apply Permutation_sym; eauto|apply seq_NoDup]).
  assert (Hin : In l (map p_leaf sel)) by (apply (Permutation_in _ (Permutation_sym Hperm)), in_seq; fold d; lia).
  apply in_map_iff in Hin. destruct Hin as (q & <- & Hq). exists q. split; auto. split; auto. intros p Hpin. split; [|congruence].
  intros E. clear - Hnl Hq Hpin E. induction sel as [|a ps IH]; [contradiction|]. simpl in Hnl. inversion Hnl as [|? ? Hni Hd']; subst.
  destruct Hpin as [->|Hpin], Hq as [->|Hq]; auto; exfalso; apply Hni.
  + rewrite E. apply in_map. auto.
  + rewrite <- E. apply in_map. auto.
Qed.

Lemma tree_point_feasible : ip_feasible m tree_point.
Proof.
  assert (Hval : forall j, tree_point j = 1%Q \/ tree_point j = 0%Q).
  { intros j. unfold tree_point. destruct (existsb _ sel); auto. destruct (existsb _ (seq 0 (2 ^ d - 1))); auto. }
  assert (Hn : NoDup paths) by (apply (NoDup_map_inv' p_id), (fm_path_ids _ _ _ _ _ _ _ _ _ _ F)).
  split; [split|].
  - intros j v Hv. rewrite (fm_vars _ _ _ _ _ _ _ _ _ _ F v (nth_error_In _ _ Hv)). cbn [v_lb v_ub]. split; intros b E; [|discriminate].
    injection E as <-. destruct (Hval j) as [-> | ->]; lra.
  - intros i k Hk. destruct (nth_error kinds i) as [c|] eqn:Hi.
    2: { apply nth_error_None in Hi. rewrite (Forall2_length' _ _ _ (fm_cons _ _ _ _ _ _ _ _ _ _ F)) in Hi.
         assert (i < length (lp_cons m)) by (apply nth_error_Some; congruence). lia. }
    pose proof (form_activity _ _ _ _ _ _ _ _ _ _ F i c k tree_point Hi Hk) as E. fold cov in E.
    destruct (Forall2_nth_error _ _ _ _ _ (fm_cons _ _ _ _ _ _ _ _ _ _ F) Hi) as (k' & Hk' & Hb & _). assert (k' = k) by congruence. subst k'.
    pose proof (nth_error_In _ _ Hi) as Hin.
    destruct c as [l|r|z|l n q]; cbn [kind_bounds] in Hb; injection Hb as B1 B2; rewrite B1, B2.
    + apply (fm_leaves _ _ _ _ _ _ _ _ _ _ F) in Hin. unfold su_leaves in Hin. rewrite complete_leaves_length in Hin.
      rewrite (point_sum (cov (KLeaf l))) in E.
      * split; intros b Eb; injection Eb as <-; lra.
      * destruct (sel_leaf_unique l Hin) as (q & Hq & _ & Hu). exists q. split; auto. intros p Hpin. rewrite <- (Hu p Hpin). unfold cov. rewrite covb_iff. reflexivity.
    + split; intros b Eb; [discriminate|]. injection Eb as <-. rewrite E.
      destruct (nth_error (su_X u) r) as [xr|] eqn:Ex.
      * rewrite (tree_solution_sum d (su_splits u) tree paths tree_point (cov (KRow r)) (goes_left (su_splits u) xr) Hn point_solution); [lra|].
        intros p Hpin [Hl _]. unfold cov. rewrite covb_iff. cbn [covers]. unfold su_leaves. fold d. rewrite (complete_leaves_nth _ _ Hl), Ex. split.
        -- intros (x' & lf & E1 & E2 & H). injection E1 as <-. injection E2 as <-. exact H.
        -- intros H. eauto 6.
      * rewrite (qsum_zero _ paths); [lra|]. intros p _. destruct (cov (KRow r) p) eqn:E2; [|reflexivity]. unfold cov in E2. apply covb_iff in E2.
        cbn [covers] in E2. destruct E2 as (x' & _ & E2 & _). congruence.
    + rewrite (tree_solution_sum d (su_splits u) tree paths tree_point (cov (KCut z)) (fun k => nth k z false) Hn point_solution) in E.
      * split; intros b Eb; injection Eb as <-; lra.
      * intros p Hpin [Hl _]. unfold cov. rewrite covb_iff. cbn [covers]. unfold su_leaves. fold d. rewrite (complete_leaves_nth _ _ Hl). split.
        -- intros (lf & E2 & H). injection E2 as <-. exact H.
        -- intros H. eauto 6.
    + rewrite (point_choice l n q Hin) in E.
      pose proof Hin as Hin2. apply (fm_choices _ _ _ _ _ _ _ _ _ _ F) in Hin2. destruct Hin2 as (lf & nd & H1 & H2 & H3 & H4).
      assert (Hl : l < 2 ^ d).
      { rewrite <- (complete_leaves_length d). apply nth_error_Some. unfold su_leaves in H1. fold d in H1. congruence. }
      unfold su_leaves in H1. fold d in H1. rewrite (complete_leaves_nth _ _ Hl) in H1. injection H1 as <-.
      destruct (sel_leaf_unique l Hl) as (p0 & Hp0 & El0 & Hu). rewrite Forall_forall in Hp. destruct Hf as (_ & _ & Ha). rewrite Forall_forall in Ha.
      assert (Hch : In (n, tree n) (choices p0)).
      { assert (Hnin : In n (p_nodes p0)).
        { destruct (Hp p0 Hp0) as (_ & Hpm & _). apply (Permutation_in _ (Permutation_sym Hpm)). rewrite El0. exact H2. }
        destruct (tree_path_lengths d (su_splits u) p0 (Hp p0 Hp0)) as [L1 L2].
        destruct (combine_In_fst (p_nodes p0) (p_splits p0) n) as [k' Hk2]; [congruence|auto|]. pose proof (Ha p0 Hp0 n k' Hk2). subst k'. exact Hk2. }
      assert (E0 : (activity m k tree_point == 0)%Q).
      { rewrite E. destruct (Nat.eqb_spec q (tree n)) as [->|Hne].
        - rewrite (point_sum (cov (KChoice l n (tree n)))); [lra|]. exists p0. split; auto. intros p Hpin. rewrite <- (Hu p Hpin). unfold cov. rewrite covb_iff. cbn [covers].
          split; [tauto|]. intros El. split; auto. rewrite (proj1 (Hu p Hpin) El). exact Hch.
        - rewrite (qsum_zero _ paths); [lra|]. intros p Hpin. destruct (cov (KChoice l n q) p) eqn:E2; [|reflexivity]. unfold cov in E2. apply covb_iff in E2.
          cbn [covers] in E2. destruct (in_dec path_eq_dec p sel) as [Hs|Hs].
          + exfalso. apply Hne. eapply Ha; [exact Hs|apply E2].
          + rewrite point_unsel by auto. reflexivity. }
      split; intros b Eb; injection Eb as <-; lra.
  - intros j v _ _. destruct (Hval j) as [-> | ->]; [exists 1%Z|exists 0%Z]; reflexivity.
Qed.
End Tree.

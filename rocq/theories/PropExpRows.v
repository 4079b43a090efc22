(** C52, C53: the rows the experiment script removes before training. *)
From Verif Require Import Base Lp LpProofs LpCheck TreeModel SpecTree TreeGeoProofs TreePathProofs TreeLpBuild TreeInvProofs TreeFormProofs
  TreeBuildProofs SpecTreeRun TreeRunProofs TreeMasterProofs SpecTreeLp TreeLpProofs SpecTreePrice SpecTreeMip TreeHeurProofs ExpModel SpecExp ExpQuadProofs
  ExpPreprocessProofs PropTreeMaster PropTreeLp PropTreePrice TreeFedProofs TreeCheck.
Open Scope nat_scope.

(** * Filling in parents and children keeps the training problem *)

Lemma pre_nth d nodes i nd : nth_error (map (preprocess_node d) nodes) i = Some nd ->
  exists n0, nth_error nodes i = Some n0 /\ n_id nd = n_id n0 /\ n_cands nd = n_cands n0.
Proof.
  rewrite nth_error_map. destruct (nth_error nodes i) as [n0|]; [|discriminate]. cbn [option_map]. intros E. injection E as <-.
  exists n0. split; auto. unfold preprocess_node. destruct (2 ^ d - 1 <=? 2 * n_id n0 + 1); auto.
Qed.
Lemma pre_nth' d nodes i n0 : nth_error nodes i = Some n0 ->
  exists nd, nth_error (map (preprocess_node d) nodes) i = Some nd /\ n_id nd = n_id n0 /\ n_cands nd = n_cands n0.
Proof.
  intros E. exists (preprocess_node d n0). rewrite nth_error_map, E. split; auto. unfold preprocess_node.
  destruct (2 ^ d - 1 <=? 2 * n_id n0 + 1); auto.
Qed.
Lemma pre_candidates d nodes p : uses_candidates (map (preprocess_node d) nodes) p <-> uses_candidates nodes p.
Proof.
  split; intros H n k Hin; destruct (H n k Hin) as (nd & E & Hk).
  - destruct (pre_nth _ _ _ _ E) as (n0 & E0 & _ & Ec). exists n0. rewrite <- Ec. auto.
  - destruct (pre_nth' d _ _ _ E) as (n0 & E0 & _ & Ec). exists n0. rewrite Ec. auto.
Qed.
Lemma pre_wf d X nodes splits : wf_tree d X nodes splits -> wf_tree d X (map (preprocess_node d) nodes) splits.
Proof.
  intros [H1 H2 [H3 H4] H5 H6 H7 H8 H9 H10]. constructor; auto.
  - split; [rewrite map_length; auto|]. intros i n E. destruct (pre_nth _ _ _ _ E) as (n0 & E0 & -> & _). auto.
  - intros n Hin. apply In_nth_error in Hin. destruct Hin as [i E]. destruct (pre_nth _ _ _ _ E) as (n0 & E0 & _ & ->).
    apply H5. eapply nth_error_In; eauto.
Qed.
Lemma pre_reachable d nodes left l : reachable d (map (preprocess_node d) nodes) left l <-> reachable d nodes left l.
Proof.
  split; intros (H & tree & Ht & E); (split; [exact H|]); exists tree; (split; [|exact E]); intros n nd Hb Hn.
  - destruct (pre_nth' d _ _ _ Hn) as (n0 & E0 & _ & <-). eauto.
  - destruct (pre_nth _ _ _ _ Hn) as (n0 & E0 & _ & ->). eauto.
Qed.

(** Everything that is used below. *)
Lemma preprocessed_facts u aggressive limit clk u' : valid_setup u -> valid_data u -> fresh_nodes u ->
  preprocessed u aggressive limit clk u' ->
  exists rows rep, u' = mkSetup (su_depth u) (su_X u) (su_y u) (map (preprocess_node (su_depth u)) (su_nodes u)) (su_splits u) (su_paths u)
      (su_beta u) (su_gen u) (su_rounds u) (Some rows) /\
    length rows = length (su_X u) /\ Forall (fun b => r_paths b = []) rows /\
    (forall r, r < length (su_X u) -> rep r <= r /\ rep (rep r) = rep r /\ nth_error (su_y u) (rep r) = nth_error (su_y u) r /\
       same_way (su_depth u) (su_X u) (su_nodes u) (su_splits u) (rep r) r) /\
    (forall r b, nth_error rows r = Some b -> (r_gone_sp b = false <-> rep r = r)) /\
    (forall P w, (forall r, r < length (su_X u) -> P (rep r) = P r) -> (forall r b, nth_error rows r = Some b -> w r = r_weight b) ->
       nsum w (filter (fun r => negb (spb rows r) && P r) (seq 0 (length (su_X u)))) = length (filter P (seq 0 (length (su_X u))))) /\
    (forall r b, nth_error rows r = Some b -> r_gone b = true -> few_leaves (su_depth u) (su_X u) (su_nodes u) (su_splits u) r \/
       exists r' b', r' < r /\ nth_error rows r' = Some b' /\ r_gone b' = false /\
         same_way (su_depth u) (su_X u) (su_nodes u) (su_splits u) r' r) /\
    (steady clk -> forall r b, nth_error rows r = Some b -> r_gone_sp b = true -> r_gone b = true).
Proof.
  intros (W & _) (Hy & _) Hf (nodes & rows & E & ->).
  destruct (preprocess_ok _ _ _ _ _ W Hy Hf aggressive limit clk) as (rows' & rep & E' & H1 & H2 & H3 & H4 & H5 & _ & H6 & H7 & _).
  rewrite E in E'. injection E' as -> ->. exists rows', rep. auto 12.
Qed.

(** * C52 *)

(** preprocess never fails on a valid training problem, whatever the clock shows, and its result is a valid training problem. *)
Theorem C52_runs : forall u aggressive limit clk, valid_setup u -> valid_data u -> fresh_nodes u ->
  exists u', preprocessed u aggressive limit clk u' /\ valid_setup u' /\ valid_data u'.
Proof.
  intros u aggressive limit clk V D Hf. pose proof V as (W & Hp & _). pose proof D as (Hy & _).
  destruct (preprocess_ok _ _ _ _ _ W Hy Hf aggressive limit clk) as (rows & rep & E & H1 & H2 & _).
  eexists. split; [eexists; eexists; split; [exact E|reflexivity]|]. split; [|exact D]. split; [apply pre_wf; exact W|]. split; [exact Hp|]. split; auto.
Qed.
Print Assumptions C52_runs.

(** Every training row is represented by a row the subproblems keep, of the same class, following the same paths. *)
Theorem C52_represented : forall u aggressive limit clk u' r, valid_setup u -> valid_data u -> fresh_nodes u ->
  preprocessed u aggressive limit clk u' -> r < length (su_X u) ->
  exists r', r' <= r /\ active u' r' /\ nth_error (su_y u) r' = nth_error (su_y u) r /\
    same_way (su_depth u) (su_X u) (su_nodes u) (su_splits u) r' r.
Proof.
  intros u aggressive limit clk u' r V D Hf P Hr. destruct (preprocessed_facts _ _ _ _ _ V D Hf P) as (rows & rep & -> & L & _ & H1 & H2 & _).
  destruct (H1 r Hr) as (A & B & C & S). exists (rep r). split; auto. split; [|auto].
  destruct (nth_error_some_lt rows (rep r)) as [b Eb]; [lia|]. exists b. split; auto. apply (H2 _ _ Eb). auto.
Qed.
Print Assumptions C52_represented.

Lemma seq_class (y : list nat) t : length (filter (fun r => match nth_error y r with Some c => c =? t | None => false end) (seq 0 (length y))) =
  length (filter (fun c => c =? t) y).
Proof.
  induction y as [|c y IH]; auto. cbn [length seq filter nth_error]. rewrite <- seq_shift.
  assert (E : forall (f g : nat -> bool) l, (forall r, f (S r) = g r) -> length (filter f (map S l)) = length (filter g l)).
  { intros f g l H. induction l as [|a l IHl]; auto. cbn [map filter]. rewrite H. destruct (g a); cbn [length]; auto. }
  destruct (c =? t); cbn [length]; rewrite (E _ (fun r => match nth_error y r with Some c => c =? t | None => false end)) by reflexivity; auto.
Qed.
Lemma spb_active rows r b : nth_error rows r = Some b -> spb rows r = r_gone_sp b.
Proof. intros E. unfold spb. rewrite E. reflexivity. Qed.

(** The weights of the kept rows of a class sum to the number of rows of the class. *)
Theorem C52_class_total : forall u aggressive limit clk u' t rs, valid_setup u -> valid_data u -> fresh_nodes u ->
  preprocessed u aggressive limit clk u' -> NoDup rs -> (forall r, In r rs <-> nth_error (su_y u) r = Some t /\ active u' r) ->
  nsum (row_weight u') rs = length (filter (fun c => c =? t) (su_y u)).
Proof.
  intros u aggressive limit clk u' t rs V D Hf P N I. destruct (preprocessed_facts _ _ _ _ _ V D Hf P) as (rows & rep & -> & L & _ & H1 & H2 & H3 & _).
  pose proof D as (Hy & _). rewrite <- seq_class. rewrite Hy.
  rewrite <- (H3 _ (row_weight (mkSetup (su_depth u) (su_X u) (su_y u) (map (preprocess_node (su_depth u)) (su_nodes u)) (su_splits u) (su_paths u)
      (su_beta u) (su_gen u) (su_rounds u) (Some rows)))).
  - apply nsum_perm, NoDup_Permutation; auto; [apply NoDup_filter, seq_NoDup|]. intros r. rewrite I, filter_In, in_seq, andb_true_iff, negb_true_iff. split.
    + intros (Ec & b & Eb & Hg). cbn [su_rows] in *. rewrite Ec, Nat.eqb_refl, (spb_active _ _ _ Eb).
      assert (r < length rows) by (apply nth_error_Some; congruence). split; [lia|auto].
    + intros (Hr & Hs & Hc). destruct (nth_error (su_y u) r) as [c|]; [|discriminate]. apply Nat.eqb_eq in Hc. subst c. split; auto.
      destruct (nth_error_some_lt rows r) as [b Eb]; [lia|]. exists b. cbn [su_rows]. split; auto. rewrite <- (spb_active _ _ _ Eb). exact Hs.
  - intros r Hr. destruct (H1 r Hr) as (_ & _ & -> & _). reflexivity.
  - intros r b Eb. unfold row_weight. cbn [su_rows]. rewrite Eb. reflexivity.
Qed.
Print Assumptions C52_class_total.

(** The weight of a class on a path is the number of training rows of the class that follow the path. *)
Theorem C52_costs : forall u aggressive limit clk u' p t v, valid_setup u -> valid_data u -> fresh_nodes u ->
  preprocessed u aggressive limit clk u' -> tree_path (su_depth u) (su_splits u) p -> uses_candidates (su_nodes u) p ->
  (class_weight u' p t v <-> class_weight (with_rows u None) p t v).
Proof.
  intros u aggressive limit clk u' p t v V D Hf P Hp Hc. destruct (preprocessed_facts _ _ _ _ _ V D Hf P) as (rows & rep & Eu & L & _ & H1 & H2 & H3 & _).
  pose proof D as (Hy & _).
  set (cv := fun r => covb (su_X u) (su_leaves u) (su_splits u) (KRow r) p).
  set (cl := fun r => match nth_error (su_y u) r with Some c => c =? t | None => false end).
  assert (Hin : forall r, cv r = true -> r < length (su_X u)).
  { intros r H. apply covb_iff in H. destruct H as (x & lf & Hx & _). apply nth_error_Some. congruence. }
  assert (A : class_weight u' p t (nsum (row_weight u') (filter (fun r => negb (spb rows r) && (cl r && cv r)) (seq 0 (length (su_X u)))))).
  { exists (filter (fun r => negb (spb rows r) && (cl r && cv r)) (seq 0 (length (su_X u)))). split; [apply NoDup_filter, seq_NoDup|]. split; auto.
    intros r. rewrite filter_In, in_seq, !andb_true_iff, negb_true_iff. subst u'. unfold active, su_leaves. cbn [su_y su_X su_splits su_rows su_depth].
    fold (su_leaves u). rewrite <- covb_iff. fold (cv r). unfold cl. split.
    - intros (Hr & Hs & Ht & Hcv). destruct (nth_error (su_y u) r) as [c|]; [|discriminate]. apply Nat.eqb_eq in Ht. subst c. split; auto. split; auto.
      destruct (nth_error_some_lt rows r) as [b Eb]; [lia|]. exists b. rewrite <- (spb_active _ _ _ Eb). auto.
    - intros (Ht & (b & Eb & Hg) & Hcv). rewrite Ht, Nat.eqb_refl, (spb_active _ _ _ Eb). pose proof (Hin _ Hcv). split; [lia|auto]. }
  assert (B : class_weight (with_rows u None) p t (length (filter (fun r => cl r && cv r) (seq 0 (length (su_X u)))))).
  { exists (filter (fun r => cl r && cv r) (seq 0 (length (su_X u)))). split; [apply NoDup_filter, seq_NoDup|]. split.
    - clear. induction (filter _ _) as [|r l IH]; auto.
    - intros r. rewrite filter_In, in_seq, andb_true_iff. unfold active, su_leaves. cbn [with_rows su_y su_X su_splits su_rows su_depth].
      fold (su_leaves u). rewrite <- covb_iff. fold (cv r). unfold cl. split.
      + intros (Hr & Ht & Hcv). destruct (nth_error (su_y u) r) as [c|]; [|discriminate]. apply Nat.eqb_eq in Ht. subst c. auto 6.
      + intros (Ht & _ & Hcv). rewrite Ht, Nat.eqb_refl. pose proof (Hin _ Hcv). split; [lia|auto]. }
  rewrite (H3 (fun r => cl r && cv r) (row_weight u')) in A.
  - split; intros H.
    + rewrite (class_weight_unique _ _ _ _ _ H A). exact B.
    + rewrite (class_weight_unique _ _ _ _ _ H B). exact A.
  - intros r Hr. destruct (H1 r Hr) as (_ & _ & Ey & S). unfold cl. rewrite Ey. f_equal. apply eq_true_iff_eq. unfold cv. rewrite !covb_iff. apply (S p Hp Hc).
  - intros r b Eb. subst u'. unfold row_weight. cbn [su_rows]. rewrite Eb. reflexivity.
Qed.
Print Assumptions C52_costs.

(** No row constraint is lost: whatever the master problem did so far, every feasible solution of the linear relaxation gives
    the paths of every training row (removed or not) at most total 1. *)
Theorem C52_row_constraints : forall u aggressive limit clk u' ops cuts s x r v, valid_setup u -> valid_data u -> fresh_nodes u ->
  preprocessed u aggressive limit clk u' -> su_beta u = false -> after u' ops cuts s -> proper_paths u' (tm_paths s) ->
  lp_feasible (tm_lp s) x -> r < length (su_X u) ->
  covered_sum (su_X u) (su_leaves u) (su_splits u) (KRow r) (tm_paths s) x v -> (v <= 1)%Q.
Proof.
  intros u aggressive limit clk u' ops cuts s x r v V D Hf P Hb A Hp F Hr Hv.
  destruct (C52_runs u aggressive limit clk V D Hf) as (u2 & P2 & V' & _).
  assert (u2 = u').
  { destruct P as (n1 & r1 & E1 & ->). destruct P2 as (n2 & r2 & E2 & ->). rewrite E1 in E2. injection E2 as -> ->. reflexivity. }
  subst u2. clear P2.
  destruct (preprocessed_facts _ _ _ _ _ V D Hf P) as (rows & rep & Eu & L & _ & _ & _ & _ & H4 & _).
  destruct (C36_formulation u' ops cuts s V' A) as (rws & kinds & cv & rows' & Fm & _ & _ & _ & _ & Hall & Hg).
  assert (Hn : NoDup (tm_paths s)) by (apply (NoDup_map_inv' p_id), (fm_path_ids _ _ _ _ _ _ _ _ _ _ Fm)).
  assert (Kept : forall r' b' w, nth_error rows r' = Some b' -> r_gone b' = false ->
            covered_sum (su_X u) (su_leaves u) (su_splits u) (KRow r') (tm_paths s) x w -> (w <= 1)%Q).
  { intros r' b' w Eb Eg Hw. apply covered_sum_iff in Hw; auto.
    assert (Hin : In r' rws).
    { subst u'. cbn [su_rows su_beta] in *. assert (Em : nth_error (map r_gone rows') r' = Some false) by (rewrite Hg, nth_error_map, Eb; cbn; congruence).
      rewrite nth_error_map in Em. destruct (nth_error rows' r') as [dr|] eqn:Ed; [|discriminate]. cbn in Em. injection Em as Em. exact (Hall Hb r' dr Ed Em). }
    apply (fm_rows _ _ _ _ _ _ _ _ _ _ Fm) in Hin. apply In_nth_error in Hin. destruct Hin as [i Hi].
    destruct (Forall2_nth_error _ _ _ _ _ (fm_cons _ _ _ _ _ _ _ _ _ _ Fm) Hi) as (k & Hk & HB & _).
    pose proof (form_activity _ _ _ _ _ _ _ _ _ _ Fm i (KRow r') k x Hi Hk) as Ha. destruct F as [_ F].
    specialize (F i k Hk). injection HB as HB1 HB2. rewrite HB1, HB2 in F. 
    assert (EX : su_X u' = su_X u /\ su_leaves u' = su_leaves u /\ su_splits u' = su_splits u) by (subst u'; auto). destruct EX as (E1 & E2 & E3).
    rewrite E1, E2, E3 in Ha. rewrite <- Hw in Ha. cbn iota in Ha. pose proof (proj2 F 1%Q eq_refl). lra. }
  destruct (nth_error_some_lt rows r) as [b Eb]; [lia|]. destruct (r_gone b) eqn:Eg; [|apply (Kept r b v Eb Eg Hv)].
  destruct (H4 r b Eb Eg) as [(xr & R & Ex & HR & Hall')|(r' & b' & _ & Eb' & Eg' & S)].
  - enough (v == 1)%Q by lra. subst u'.
    eapply (C39_fractional _ ops cuts s rws kinds cv x r xr R v V' A Fm Hp); eauto.
    + destruct F as [F1 F2]. split.
      * intros j Hj. destruct (nth_error_some_lt (lp_vars (tm_lp s)) j Hj) as [w Ew]. specialize (F1 j w Ew).
        rewrite (fm_vars _ _ _ _ _ _ _ _ _ _ Fm w (nth_error_In _ _ Ew)) in F1. apply (proj1 F1 0%Q eq_refl).
      * intros i c k _ Hk _. eapply F2; eauto.
    + intros l Hl. cbn [su_depth su_nodes su_splits] in Hl. exact (Hall' l (proj1 (pre_reachable _ _ _ _) Hl)).
  - apply (Kept r' b' v Eb' Eg'). apply covered_sum_iff; auto. apply covered_sum_iff in Hv; auto. rewrite Hv. apply qsum_ext. intros p Hin.
    unfold proper_paths in Hp. rewrite Forall_forall in Hp. destruct (Hp p Hin) as [Hp1 Hp2]. subst u'. cbn [su_depth su_nodes su_splits] in *.
    apply (proj1 (pre_candidates _ _ _)) in Hp2.
    assert (E : covb (su_X u) (su_leaves u) (su_splits u) (KRow r) p = covb (su_X u) (su_leaves u) (su_splits u) (KRow r') p).
    { apply eq_true_iff_eq. rewrite !covb_iff. symmetry. apply (S p Hp1 Hp2). }
    rewrite E. reflexivity.
Qed.
Print Assumptions C52_row_constraints.

(** * C53 *)

(** If the clock does not go back, rows the subproblems ignore are rows the master problem ignores ... *)
Theorem C53_removed : forall u aggressive limit clk u', valid_setup u -> valid_data u -> fresh_nodes u -> steady clk ->
  preprocessed u aggressive limit clk u' -> rows_agree u'.
Proof.
  intros u aggressive limit clk u' V D Hf Hs P. destruct (preprocessed_facts _ _ _ _ _ V D Hf P) as (rows & rep & -> & _ & _ & _ & _ & _ & _ & H).
  intros l r b E Eb Hg. cbn [su_rows] in E. injection E as <-. eauto.
Qed.
Print Assumptions C53_removed.

(** ... so their reported dual is 0. *)
Theorem C53_no_dual : forall u aggressive limit clk u' ops cuts sv dl s x pi r, valid_setup u -> valid_data u -> fresh_nodes u -> steady clk ->
  preprocessed u aggressive limit clk u' -> solved u' ops cuts sv dl s x pi -> r < length (su_X u) -> ~ active u' r ->
  nth_error (d_row dl) r = Some 0%Q.
Proof.
  intros u aggressive limit clk u' ops cuts sv dl s x pi r V D Hf Hst P Hs Hr Ha.
  pose proof (C53_removed _ _ _ _ _ V D Hf Hst P) as Ag.
  destruct (C52_runs u aggressive limit clk V D Hf) as (u2 & P2 & V' & _).
  assert (u2 = u').
  { destruct P as (n1 & r1 & E1 & ->). destruct P2 as (n2 & r2 & E2 & ->). rewrite E1 in E2. injection E2 as -> ->. reflexivity. }
  subst u2. destruct (solved_inv _ _ _ _ _ _ _ _ V' Hs) as (kinds & H & R).
  destruct (preprocessed_facts _ _ _ _ _ V D Hf P) as (rows & rep & Eu & L & _).
  assert (EX : su_X u' = su_X u) by (subst u'; reflexivity). rewrite EX in R.
  apply (rp_row0 _ _ _ _ _ _ _ R r Hr). intros Hin.
  destruct (after_inv u' _ _ _ V' (solved_after _ _ _ _ _ _ _ _ Hs)) as (kinds' & H' & _ & _ & _ & _ & _ & rows' & Er & _ & Hg & _ & Hsame).
  assert (Hr' : r < length (su_X u')) by congruence.
  apply (ti_added _ _ _ _ _ _ _ H r Hr') in Hin. apply (ti_added _ _ _ _ _ _ _ H' r Hr') in Hin. apply Hg in Hin. destruct Hin as (dr & Ed & Eg).
  assert (Es : su_rows u' = Some rows) by (subst u'; reflexivity). rewrite Es in Hsame.
  destruct (Forall2_nth_l _ _ _ _ _ Hsame Ed) as (dr0 & Ed0 & (_ & _ & _ & _ & Hgg & _)).
  assert (Esp : r_gone_sp dr0 = true).
  { destruct (r_gone_sp dr0) eqn:E; auto. elim Ha. unfold active. rewrite Es. eauto. }
  pose proof (Ag rows r dr0 Es Ed0 Esp) as Hg0. congruence.
Qed.
Print Assumptions C53_no_dual.

(** * Cases *)

(** Rows 0, 1, 2 take the same sides of both splits, as do rows 3 and 4; row 5 can reach only the first leaf. *)
Definition dup_nodes : list node := [mkNode 0 [0; 1] None 0 0 false; mkNode 1 [0; 1] None 0 0 false; mkNode 2 [0; 1] None 0 0 false].
Definition dup_splits : list split := [mkSplit 0 0 (1 # 2) false [0; 1; 2; 5] [3; 4] [] []; mkSplit 1 1 (1 # 2) false [3; 4; 5] [0; 1; 2] [] []].
Definition dup_setup : setup :=
  mkSetup 2 [[0; 1]; [0; 2]; [0; 1]; [1; 0]; [1; 0]; [0; 0]]%Q [0; 0; 1; 1; 1; 0] dup_nodes dup_splits
    [mkPath 0 [0; 1] [0; 1] 0 0 0 true; mkPath 1 [0; 1] [0; 1] 2 0 0 true; mkPath 2 [0; 2] [0; 1] 2 0 1 true; mkPath 3 [0; 2] [0; 1] 0 0 0 true]
    false true 3 None.
Lemma dup_valid : valid_setup dup_setup.
Proof. apply valid_setup_ok; [vm_compute|]; reflexivity. Qed.
Lemma dup_data : valid_data dup_setup.
Proof. split; [reflexivity|]. repeat constructor; simpl; intuition lia. Qed.
Lemma dup_fresh : fresh_nodes dup_setup.
Proof. repeat constructor. Qed.
Definition summary (rows : list row) : list (bool * bool * nat) := map (fun b => (r_gone b, r_gone_sp b, r_weight b)) rows.

(** Uninterrupted: rows 0, 2, 3, 5 are kept for pricing with weights 2, 1, 2, 1; rows 0 and 3 are kept in the master problem. *)
Example C52_case : exists nodes rows, preprocess dup_nodes dup_splits (su_X dup_setup) (su_y dup_setup) 2 true 150 (fun _ => 0%Q) = Ok (nodes, rows) /\
  summary rows = [(false, false, 2); (true, true, 1); (true, false, 1); (false, false, 2); (true, true, 1); (true, false, 1)].
Proof. do 2 eexists. split; vm_compute; reflexivity. Qed.
(** Interrupted at the first comparison, and without the quadratic loop: only row 5 is removed. *)
Example C52_case_interrupted : exists nodes rows, preprocess dup_nodes dup_splits (su_X dup_setup) (su_y dup_setup) 2 true 150 (fun k => if k <? 2 then 0 else 200)%Q = Ok (nodes, rows) /\
  summary rows = [(false, false, 1); (false, false, 1); (false, false, 1); (false, false, 1); (false, false, 1); (true, false, 1)].
Proof. do 2 eexists. split; vm_compute; reflexivity. Qed.
Example C52_case_plain : exists nodes rows, preprocess dup_nodes dup_splits (su_X dup_setup) (su_y dup_setup) 2 false 150 (fun _ => 0%Q) = Ok (nodes, rows) /\
  summary rows = [(false, false, 1); (false, false, 1); (false, false, 1); (false, false, 1); (false, false, 1); (true, false, 1)].
Proof. do 2 eexists. split; vm_compute; reflexivity. Qed.

(** The theorems apply to it, and the master problem built from the kept rows has the row constraints of rows 0 and 3 only. *)
Definition dup_sol (j : nat) : Q := if memb j [0; 1; 2; 3; 5; 6; 9] then 1%Q else 0%Q.
Definition dup_sv : tsolvers := mkTsv (fun _ _ => Some (dup_sol, fun _ => 1%Q)) (fun _ => ex_sols) (fun _ _ => None).
Definition dup_prepared (r : list node * list row) : setup :=
  mkSetup 2 (su_X dup_setup) (su_y dup_setup) (fst r) dup_splits (su_paths dup_setup) false true 3 (Some (snd r)).
Definition dup_check (r : list node * list row) :=
  match run_setup (dup_prepared r) [] with
  | Ok (cuts, s) => match solve_rmp dup_sv s with
    | Ok (dl, s') => Some (cuts, tm_added s, feasibleb (tm_lp s) dup_sol, forallb (proper_pathb 2 2 (fst r)) (tm_paths s), d_new_cuts dl,
                           match tm_answer s' with Some _ => true | None => false end, d_row dl)
    | Err _ => None end
  | Err _ => None end.
Definition dup_pre : res (list node * list row) := preprocess dup_nodes dup_splits (su_X dup_setup) (su_y dup_setup) 2 true 150 (fun _ => 0%Q).
Lemma dup_checked : match dup_pre with Ok r => Some (dup_check r, map r_gone_sp (snd r)) | Err _ => None end =
    Some (Some ([], [true; false; false; true; false; false], true, true, [], true, [1; 0; 0; 1; 0; 0]%Q), [false; true; false; false; true; false]).
Proof. vm_compute. reflexivity. Qed.
Lemma dup_check_inv r cuts ad f p nc a dr : dup_check r = Some (cuts, ad, f, p, nc, a, dr) -> exists s dl s',
  run_setup (dup_prepared r) [] = Ok (cuts, s) /\ solve_rmp dup_sv s = Ok (dl, s') /\ tm_added s = ad /\ feasibleb (tm_lp s) dup_sol = f /\
  forallb (proper_pathb 2 2 (fst r)) (tm_paths s) = p /\ d_new_cuts dl = nc /\ match tm_answer s' with Some _ => true | None => false end = a /\ d_row dl = dr.
Proof.
  unfold dup_check. destruct (run_setup (dup_prepared r) []) as [[c s]|]; [|discriminate]. destruct (solve_rmp dup_sv s) as [[dl s']|] eqn:E; [|discriminate].
  intros H. injection H as -> H1 H2 H3 H4 H5 H6. exists s, dl, s'. auto 10.
Qed.
Lemma some_pair {A B} (a c : A) (b d : B) : Some (a, b) = Some (c, d) -> a = c /\ b = d.
Proof. intros H. injection H as H1 H2. auto. Qed.
Lemma dup_facts : exists r s dl s' x pi, preprocessed dup_setup true 150 (fun _ => 0%Q) (dup_prepared r) /\ after (dup_prepared r) [] [] s /\
  solved (dup_prepared r) [] [] dup_sv dl s' x pi /\ proper_paths (dup_prepared r) (tm_paths s) /\ tm_added s = [true; false; false; true; false; false] /\
  lp_feasible (tm_lp s) dup_sol /\ d_row dl = [1; 0; 0; 1; 0; 0]%Q /\ map r_gone_sp (snd r) = [false; true; false; false; true; false].
Proof.
  pose proof dup_checked as V. destruct dup_pre as [[nodes rows]|] eqn:E; [|discriminate V]. apply some_pair in V. destruct V as [V V2].
  apply dup_check_inv in V. destruct V as (s & dl & s' & Er & Es & Ha & Hf & Hp & Hn & Ht & Hr). destruct (tm_answer s') as [[x pi]|] eqn:Ea; [|discriminate Ht].
  assert (A : after (dup_prepared (nodes, rows)) [] [] s) by (apply run_setup_after; [constructor|exact Er]).
  exists (nodes, rows), s, dl, s', x, pi. split; [exists nodes, rows; split; [exact E|reflexivity]|]. split; [exact A|].
  split; [exists s, []; split; [exact A|]; split; [intros n; exact ex_sols_sound|]; split; [exact Es|]; split; [rewrite Hn; reflexivity|exact Ea]|].
  split; [apply proper_pathb_ok; exact Hp|]. split; [exact Ha|]. split; [apply feasibleb_ok; exact Hf|]. split; [exact Hr|exact V2].
Qed.
Example C52_case_master : exists u' s, preprocessed dup_setup true 150 (fun _ => 0%Q) u' /\ after u' [] [] s /\ proper_paths u' (tm_paths s) /\
  tm_added s = [true; false; false; true; false; false] /\ lp_feasible (tm_lp s) dup_sol.
Proof. destruct dup_facts as (r & s & dl & s' & x & pi & H1 & H2 & H3 & H4 & H5 & H6 & _). exists (dup_prepared r), s. auto. Qed.

(** C53: with a solver that reports dual 1 for every constraint, the rows removed from pricing have dual 0. *)
Lemma flat_steady q : steady (fun _ => q).
Proof. intros j k _. lra. Qed.
Example C53_case : exists u' dl s x pi, preprocessed dup_setup true 150 (fun _ => 0%Q) u' /\ steady (fun _ => 0%Q) /\
  solved u' [] [] dup_sv dl s x pi /\ d_row dl = [1; 0; 0; 1; 0; 0]%Q /\ ~ active u' 1 /\ ~ active u' 4 /\ active u' 2.
Proof.
  destruct dup_facts as (r & s & dl & s' & x & pi & H1 & _ & H2 & _ & _ & _ & H3 & V). exists (dup_prepared r), dl, s', x, pi.
  split; [exact H1|]. split; [apply flat_steady|]. split; [exact H2|]. split; [exact H3|].
  assert (H : forall k b, nth_error (map r_gone_sp (snd r)) k = Some b -> exists dr, nth_error (snd r) k = Some dr /\ r_gone_sp dr = b).
  { intros k b. rewrite nth_error_map. destruct (nth_error (snd r) k) as [dr|]; [|discriminate]. intros H. injection H as H. eauto. }
  rewrite V in H. unfold active. cbn [dup_prepared su_rows].
  destruct (H 1 _ eq_refl) as (d1 & E1 & G1). destruct (H 4 _ eq_refl) as (d4 & E4 & G4). destruct (H 2 _ eq_refl) as (d2 & E2 & G2).
  split; [intros (dr & Ed & G); congruence|]. split; [intros (dr & Ed & G); congruence|eauto].
Qed.

(** The hypothesis about the clock is needed.  Rows 0, 1, 2 go the same way, rows 1 and 2 have the same class.  The clock shows
    the time limit is over before rows 0 and 2 are compared, and goes back: row 1, which is no longer in the master problem, then
    removes row 2 from pricing only. *)
Definition back_setup : setup := mkSetup 2 [[0; 1]; [0; 1]; [0; 1]]%Q [0; 1; 1] dup_nodes
  [mkSplit 0 0 (1 # 2) false [0; 1; 2] [] [] []; mkSplit 1 1 (1 # 2) false [] [0; 1; 2] [] []] [] false true 3 None.
Theorem C53_clock_needed : exists u clk u', valid_setup u /\ valid_data u /\ fresh_nodes u /\ preprocessed u true 150 clk u' /\ ~ rows_agree u'.
Proof.
  exists back_setup, (fun k => if k =? 3 then 151 else 0)%Q.
  assert (V : match preprocess dup_nodes (su_splits back_setup) (su_X back_setup) (su_y back_setup) 2 true 150 (fun k => if k =? 3 then 151 else 0)%Q with
      Err _ => None | Ok r => Some (map (fun b => (r_gone b, r_gone_sp b)) (snd r)) end = Some [(false, false); (true, false); (false, true)]) by (vm_compute; reflexivity).
  destruct (preprocess _ _ _ _ _ _ _ _) as [[nodes rows]|] eqn:E; [|discriminate V]. injection V as V. cbn [snd] in V.
  eexists. split; [apply valid_setup_ok; [vm_compute|]; reflexivity|].
  split; [split; [reflexivity|repeat constructor; simpl; intuition lia]|]. split; [repeat constructor|].
  split; [exists nodes, rows; split; [exact E|reflexivity]|]. intros Ag.
  assert (H : nth_error (map (fun b => (r_gone b, r_gone_sp b)) rows) 2 = Some (false, true)) by (rewrite V; reflexivity).
  rewrite nth_error_map in H. destruct (nth_error rows 2) as [b|] eqn:Eb; [|discriminate]. injection H as H1 H2.
  rewrite (Ag rows 2 b eq_refl Eb H2) in H1. discriminate.
Qed.
Print Assumptions C53_clock_needed.

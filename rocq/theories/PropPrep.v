(** Properties C68 and C69: the experiment script's preparation as a whole. *)
From Verif Require Import Base Lp LpProofs FitModel SpecFit SolveModel SolveObs TreeModel TreePricingModel TreeFitModel ExpModel SpecTree SpecTreeRun SpecTreeLp SpecTreePrice SpecTreeMip SpecTreeFit SpecTreeTrain SpecTreeResult
  SpecExp SpecPrep TreeGeoProofs TreePathProofs TreeLpBuild TreeBuildProofs TreeInvProofs TreeMasterProofs TreeFormProofs TreeSolProofs TreeLpProofs TreeResultProofs TreeOutcomeProofs
  TreeHonestProofs PrepPathsProofs PrepProofs PrepTrainProofs PrepCartProofs ExpCheck PropTree PropTreeLp PropTreeFit PropTreeTrain PropTreeResult PropExpRows.
Open Scope nat_scope.

(** C68: for every depth, CART trees and data, the preparation succeeds and what it delivers is accepted by the constructor
    and describes a training problem: the complete tree, every initial path with a most frequent class of its rows and their
    number, numbered in order and no two alike. *)
Theorem C68_prepares : forall d cs final extra X y aggressive limit clk, experiment d cs final extra X y ->
  exists out, prepare d cs final extra X y aggressive limit clk = Ok out /\
    forall iterations time rounds beta gen old, let A := prepared_args d y out iterations time rounds beta gen old in
      (exists w0, dtree_init A = Ok w0) /\ ta_depth A = d /\ ta_leaves A = complete_leaves d /\
      valid_setup (fit_setup A X y) /\ valid_data (fit_setup A X y) /\ (steady clk -> rows_agree (fit_setup A X y)) /\
      Forall (fun p => tree_path d (ta_splits A) p /\ majority_path d X y (ta_splits A) p) (ta_paths A) /\
      in_sequence (map p_id (ta_paths A)) /\
      (forall i j p q, nth_error (ta_paths A) i = Some p -> nth_error (ta_paths A) j = Some q -> i <> j -> ~ same_path p q).
Proof.
  intros d cs final extra X y aggressive limit clk Ex.
  destruct (prepare_ok d cs final extra X y Ex aggressive limit clk) as (paths & nodes & splits & rows & tree & E & Ep & Oc).
  eexists. split; [exact E|]. intros it tl rd beta gen old. cbv zeta.
  fold (the_args d y paths nodes splits rows it tl rd beta gen old).
  pose proof (args_valid d cs final extra X y Ex paths nodes splits rows tree aggressive limit clk Ep Oc it tl rd beta gen old) as [V D].
  split; [apply C49_constructor; eapply args_constructible; eauto|]. split; [reflexivity|]. split; [reflexivity|]. split; [exact V|]. split; [exact D|].
  split; [intros Hc; eapply args_agree; eauto|]. destruct Oc. split; [|split].
  - eapply Forall_impl; [|exact oc_paths]. intros p (H1 & H2 & _). auto.
  - intros k Hk. cbn in *. unfold numbered in oc_numbered. rewrite oc_numbered in *. rewrite seq_length in Hk. rewrite (nth_error_nth' _ 0), seq_nth by (rewrite ?seq_length; auto). reflexivity.
  - intros i j p q Ei Ej Hne. intros (S1 & S2 & S3 & S4). destruct (Nat.lt_ge_cases i j) as [Hlt|Hge].
    + apply (oc_differ i j p q Hlt Ei Ej). split; [auto|split; [auto|split; [symmetry; exact S3|]]]. intros n k. split; apply S4.
    + apply (oc_differ j i q p ltac:(lia) Ej Ei). split; [auto|split; [auto|split; [exact S3|exact S4]]].
Qed.
Print Assumptions C68_prepares.

(** ... and training on it terminates with a decision tree (C65) if no initial path lost a split when the candidates were
    reduced. *)
Theorem C68_trainable : forall d cs final extra X y aggressive limit clk out iterations time rounds beta gen old,
  experiment d cs final extra X y -> initial_kept d cs final -> extra_kept d cs final extra -> steady clk ->
  contiguous y -> (exists a b, In a y /\ In b y /\ a <> b) ->
  prepare d cs final extra X y aggressive limit clk = Ok out ->
  trainable (prepared_args d y out iterations time rounds beta gen old) X y.
Proof.
  intros d cs final extra X y aggressive limit clk out it tl rd beta gen old Ex K1 K2 Hc Hy Hab E.
  destruct (prepare_ok d cs final extra X y Ex aggressive limit clk) as (paths & nodes & splits & rows & tree & E' & Ep & Oc).
  rewrite E in E'. injection E' as ->. eapply args_trainable; eauto.
Qed.
Print Assumptions C68_trainable.

(** C69: the trained estimator classifies at least as many training rows correctly as the CART tree the preparation started
    from, and as every additional CART tree with a kept test at every node, whatever classes these trees have at their leaves. *)
Theorem C69_no_worse_than_cart : forall d cs final extra X y aggressive limit clk out iterations time rounds beta gen old sv clk' w0 fuel s',
  experiment d cs final extra X y -> initial_kept d cs final -> extra_kept d cs final extra -> steady clk ->
  contiguous y -> (exists a b, In a y /\ In b y /\ a <> b) ->
  prepare d cs final extra X y aggressive limit clk = Ok out ->
  let A := prepared_args d y out iterations time rounds beta gen old in
  honest (fit_setup A X y) sv -> near_selection (fit_setup A X y) sv -> dtree_init A = Ok w0 ->
  tree_fit sv A clk' X y fuel (new_estimator w0) = (s', Done tt) ->
  exists code rs, predicts A s' code /\ right_rows X y (fun x t => code x = Z.of_nat t) rs /\
    forall c label rs', c = final \/ (In c extra /\ full_tree d cs final c) -> right_rows X y (cart_class c label) rs' -> length rs' <= length rs.
Proof.
  intros d cs final extra X y aggressive limit clk out it tl rd beta gen old sv clk' w0 fuel s' Ex K1 K2 Hc Hy Hab E A Ho Hop Ew Ef.
  assert (R : trainable A X y) by (eapply C68_trainable; eauto).
  destruct (prepare_ok d cs final extra X y Ex aggressive limit clk) as (paths & nodes & splits & rows & tree0 & E' & Ep & Oc).
  rewrite E in E'. injection E' as ->. change A with (the_args d y paths nodes splits rows it tl rd beta gen old) in *. clear A. set (A := the_args _ _ _ _ _ _ _ _ _ _ _ _) in *.
  set (u := before d X y paths nodes splits rd beta gen).
  assert (V : valid_setup u) by (eapply before_valid; eauto). assert (D : valid_data u) by (eapply before_data; eauto). assert (Fr : fresh_nodes u) by (eapply before_fresh; eauto).
  assert (Pre : preprocessed u aggressive limit clk (fit_setup A X y)) by (apply before_pre; auto).
  set (w := weigh (fit_setup A X y)). pose proof (weigh_data (fit_setup A X y)) as W. fold w in W.
  pose proof Oc as Oc'. destruct Oc' as [oc_wf _ _ oc_paths _ _ oc_tree oc_extra _ oc_kept oc_final].
  pose proof (args_proper d cs final extra X y paths nodes splits tree0 Oc K1 K2) as Huc.
  assert (Hcount : Forall (counts_rows (fit_setup A X y) w) (ta_paths A)).
  { apply Forall_forall. intros p Hp. rewrite Forall_forall in oc_paths, Huc. destruct (oc_paths p Hp) as (P1 & P2 & _).
    apply (majority_counts u aggressive limit clk (fit_setup A X y) V D Fr Pre p P1 (Huc p Hp) P2). }
  destruct (run_modest A X y sv clk' R Ho w w0 fuel s' W) as (ops & cuts & s & x & sel & tree & Ha & Hx & (i & Hi) & _ & Esel & Hft & Hpr & Eo & v & Hv & Hle); auto.
  { intros _ r Hr. apply (weight_pos u aggressive limit clk (fit_setup A X y) V D Fr Pre r Hr). }
  { eapply Forall_impl; [|exact Hcount]. intros p. apply counts_modest. }
  destruct (outcome A X y sv clk' R Ho (fun _ => True) w0 fuel s') as (ops2 & cuts2 & s2 & x2 & sel2 & tree2 & _ & _ & _ & _ & _ & _ & Esel2 & _ & Htp & _); auto.
  { apply Forall_forall. auto. }
  rewrite Esel in Esel2. injection Esel2 as <-. destruct Hft as (F1 & F2 & F3). cbn in F1. apply (over_pre d nodes) in F1.
  destruct oc_wf as [_ _ Hn0 _ _ _ _ _ _].
  assert (Hus : Forall (uses_candidates (su_nodes u)) sel).
  { rewrite Forall_forall in *. intros p Hp. eapply agrees_candidates; eauto. }
  destruct (tree_correct u aggressive limit clk (fit_setup A X y) V D Fr Pre tree sel F2 Htp F3 Hus v Hv) as (rs & Hrs & Ev).
  exists (fun xr => leaf_target sel (tree_leaf d splits tree xr)), rs. split; [exact Hpr|]. split; [exact Hrs|]. intros c label rs' Hwho Hrs'.
  assert (Hc0 : cart_ok c /\ forall h f t, tests_at c h f t -> h < 2 ^ d - 1).
  { destruct Ex as [_ _ _ (m & _ & HC) _]. rewrite Forall_forall in HC. destruct (HC c) as [Hck Hd]; [apply in_or_app; right; destruct Hwho as [->|[H _]]; [left|right]; auto|].
    split; [exact Hck|]. intros h f t T. apply (Hd h f t T). }
  assert (Hsel : exists tree1 sel0, incl sel0 paths /\ forms_tree (fit_setup A X y) tree1 sel0 /\
    forall h f t, tests_at c h f t -> exists s, nth_error splits (tree1 h) = Some s /\ s_feature s = f /\ (s_threshold s == t)%Q).
  { destruct Hwho as [->|[Hin Hfull]].
    - exists tree0, (tree_sel d paths). split; [apply sel_incl|]. split; [|exact oc_final]. apply (sel_forms d cs final extra X y paths nodes splits rows tree0 Oc it tl rd beta gen old K1).
    - destruct (oc_extra c Hin Hfull) as (tree1 & sel0 & H1 & H2 & H3 & H4 & H5). exists tree1, sel0. split; [exact H1|]. split; [|exact H5].
      split; [|split; [exact H2|exact H3]]. apply (over_pre d nodes). exact H4. }
  destruct Hsel as (tree1 & sel0 & Hin0 & F0 & Hts).
  assert (Hcb : (inject_Z (Z.of_nat (length rs')) <= qsum p_cost sel0)%Q).
  { destruct F0 as (_ & G2 & G3). destruct Hc0 as [Hck HC].
    apply (cart_bound d splits tree1 c) with (X := X) (y := y) (label := label); auto.
    - rewrite Forall_forall in *. intros p Hp. apply (oc_paths p (Hin0 p Hp)).
    - rewrite Forall_forall in *. intros p Hp. apply (oc_paths p (Hin0 p Hp)). }
  destruct (initial_value A X y R ops cuts s tree1 sel0 Ha Hin0 F0) as (x0 & Hx0 & Ex0).
  destruct Hop as (g & Hg & Hop). pose proof (proj2 (Hop i ops cuts s x Ha Hi) x0 Hx0) as Hbest.
  destruct (after_inv _ ops cuts s (tr_setup _ _ _ R) Ha) as (kinds & H & _). pose proof (after_formulated _ _ _ _ (tr_setup _ _ _ R) H) as F.
  rewrite (fm_max _ _ _ _ _ _ _ _ _ _ F) in Hbest. apply Nat2Z.inj_le. apply whole_le. lra.
Qed.
Print Assumptions C69_no_worse_than_cart.

(** * Cases *)

(** Three samples, one candidate test from an earlier tree, another one from the final tree. *)
Definition stump (f : nat) (t : Q) : cart := mkCart [1; -1; -1]%Z [2; -1; -1]%Z [f; 0; 0] [t; -2; -2]%Q.
Definition stump_nodes : list (nat * nat) := [(0, 0); (1, 1); (2, 2)].
Lemma stump_for f t : f < 1 -> cart_for 1 1 (stump f t).
Proof. intros H. replace f with 0 by lia. apply (cart_forb_ok 1 1 _ stump_nodes). reflexivity. Qed.
Lemma stump_tests f t h f' t' : tests_at (stump f t) h f' t' <-> h = 0 /\ f' = f /\ t' = t.
Proof.
  split.
  - intros T. apply (all_tests_ok _ stump_nodes) in T; [|reflexivity]. destruct T as [T|[]]. injection T as <- <- <-. auto.
  - intros (-> & -> & ->). exists 0. split; [constructor|]. split; [|split; reflexivity]. do 2 eexists. split; [reflexivity|split; [reflexivity|discriminate]].
Qed.
Definition case_cs : list cart := [stump 0 (3 # 2)].
Definition case_final : cart := stump 0 (1 # 2).
Lemma case_experiment : experiment 1 case_cs case_final case_cs ex1_X ex1_y.
Proof.
  constructor; try (cbn; auto; lia).
  - exists 1. split; [repeat constructor|]. repeat (apply Forall_cons; [apply stump_for; lia|]). apply Forall_nil.
  - exists (stump 0 (3 # 2)), 0. split; [left; reflexivity|]. exists 0, (3 # 2). apply stump_tests. auto.
Qed.
Lemma case_initial : initial_kept 1 case_cs case_final.
Proof.
  split; [cbn; lia|]. intros h Hh. cbn in Hh. replace h with 0 by lia. split; [apply Nat.leb_le; reflexivity|]. left. exists 0, (1 # 2). apply stump_tests. auto.
Qed.
Lemma case_kept h f t : made_at (case_cs ++ [case_final]) h f t -> kept_at 1 case_cs case_final h f t.
Proof.
  intros M. split; auto. destruct M as (c0 & t0 & Hc0 & T0 & _). assert (h = 0) by (destruct Hc0 as [<-|[<-|[]]]; apply stump_tests in T0; apply T0). subst h.
  exists [(0, 3 # 2); (0, 1 # 2)]. split; [apply Nat.leb_le; reflexivity|]. intros n _ c f' t' n' [<-|[<-|[]]] T _ _; apply stump_tests in T; destruct T as (_ & -> & ->).
  - exists (3 # 2). split; [left; auto|reflexivity].
  - exists (1 # 2). split; [right; left; auto|reflexivity].
Qed.
Lemma case_extra : extra_kept 1 case_cs case_final case_cs.
Proof. intros c h f t Hc T. left. apply case_kept. exists c, t. split; [apply in_or_app; auto|]. split; auto. reflexivity. Qed.
Lemma case_full : full_tree 1 case_cs case_final (stump 0 (3 # 2)).
Proof.
  intros h Hh. cbn in Hh. replace h with 0 by lia. exists 0, (3 # 2). assert (T : tests_at (stump 0 (3 # 2)) 0 0 (3 # 2)) by (apply stump_tests; auto). split; auto.
  apply case_kept. exists (stump 0 (3 # 2)), (3 # 2). split; [left; auto|]. split; auto. reflexivity.
Qed.
Lemma case_contiguous : contiguous ex1_y /\ exists a b, In a ex1_y /\ In b ex1_y /\ a <> b.
Proof.
  split; [intros t Ht; cbn in Ht; destruct t as [|[|t]]; cbn; auto; lia|]. exists 0, 1. cbn. auto.
Qed.
Definition case_out := prepare 1 case_cs case_final case_cs ex1_X ex1_y false 150 (fun _ => 0%Q).
Definition case_args (old : bool) : targs := match case_out with Ok out => prepared_args 1 ex1_y out (-1) (-1) 10 true false old | Err _ => ex1c_args old end.
Example C68_case : experiment 1 case_cs case_final case_cs ex1_X ex1_y /\ initial_kept 1 case_cs case_final /\ extra_kept 1 case_cs case_final case_cs /\
  steady (fun _ => 0%Q) /\ contiguous ex1_y /\ (exists a b, In a ex1_y /\ In b ex1_y /\ a <> b) /\
  exists out, case_out = Ok out /\
    map (fun p => (p_leaf p, p_splits p, p_cost p, p_target p)) (ta_paths (case_args false)) =
      [(0, [1], 1%Q, 0%Z); (1, [1], 1%Q, 1%Z); (0, [0], 1%Q, 0%Z); (1, [0], 1%Q, 0%Z)].
Proof.
  split; [exact case_experiment|]. split; [exact case_initial|]. split; [exact case_extra|]. split; [apply flat_steady|]. split; [apply case_contiguous|]. split; [apply case_contiguous|].
  eexists. split; vm_compute; reflexivity.
Qed.

Lemma case_trainable old : trainable (case_args old) ex1_X ex1_y.
Proof.
  assert (G : forall out, prepare 1 case_cs case_final case_cs ex1_X ex1_y false 150 (fun _ => 0%Q) = Ok out -> trainable (prepared_args 1 ex1_y out (-1) (-1) 10 true false old) ex1_X ex1_y).
  { intros out. exact (C68_trainable 1 case_cs case_final case_cs ex1_X ex1_y false 150 (fun _ => 0%Q) out (-1) (-1) 10 true false old case_experiment case_initial case_extra (flat_steady 0)
      (proj1 case_contiguous) (proj2 case_contiguous)). }
  unfold case_args, case_out. revert G. generalize (prepare 1 case_cs case_final case_cs ex1_X ex1_y false 150 (fun _ => 0%Q)). intros [out|e] G; [exact (G out eq_refl)|apply ex1c_trainable].
Qed.
Definition case_run (old : bool) : option (fstate tworld tduals path) :=
  match dtree_init (case_args old) with
  | Ok w => match tree_fit (enumerating_best (fun _ => 0%Q) (fun _ => 0%Q)) (case_args old) (fun _ => 0%Q) ex1_X ex1_y 9 (new_estimator w) with (s, Done tt) => Some s | _ => None end
  | Err _ => None end.
Lemma case_run_ok old : match case_run old with
  | Some s => f_iter s = 1 /\ tree_predict (case_args old) [0; 1] s ex1_X = Ok [0; 1; 1]
  | None => False end.
Proof. destruct old; vm_compute; auto. Qed.
Lemma case_run_fit old s : case_run old = Some s -> exists w, dtree_init (case_args old) = Ok w /\
  tree_fit (enumerating_best (fun _ => 0%Q) (fun _ => 0%Q)) (case_args old) (fun _ => 0%Q) ex1_X ex1_y 9 (new_estimator w) = (s, Done tt).
Proof.
  unfold case_run. destruct (dtree_init (case_args old)) as [w|]; [|discriminate]. intros E. exists w. split; auto.
  destruct (tree_fit _ _ _ _ _ _ _) as [s' [[]| |]]; try discriminate. congruence.
Qed.
Lemma case_cart : right_rows ex1_X ex1_y (cart_class case_final (fun i => if i =? 1 then 0 else 1)) [0; 1].
Proof. apply (cart_right_ok 3 case_final (fun i => if i =? 1 then 0 else 1) ex1_X ex1_y). reflexivity. Qed.
(** CART with classes 0 and 1 at its leaves is right for two of the three samples, and so is the trained tree. *)
Example C69_case : forall old, exists w0 s',
  honest (fit_setup (case_args old) ex1_X ex1_y) (enumerating_best (fun _ => 0%Q) (fun _ => 0%Q)) /\
  near_selection (fit_setup (case_args old) ex1_X ex1_y) (enumerating_best (fun _ => 0%Q) (fun _ => 0%Q)) /\
  dtree_init (case_args old) = Ok w0 /\
  tree_fit (enumerating_best (fun _ => 0%Q) (fun _ => 0%Q)) (case_args old) (fun _ => 0%Q) ex1_X ex1_y 9 (new_estimator w0) = (s', Done tt) /\
  tree_predict (case_args old) [0; 1] s' ex1_X = Ok [0; 1; 1] /\
  right_rows ex1_X ex1_y (cart_class case_final (fun i => if i =? 1 then 0 else 1)) [0; 1] /\
  In (stump 0 (3 # 2)) case_cs /\ full_tree 1 case_cs case_final (stump 0 (3 # 2)).
Proof.
  intros old. pose proof (case_run_ok old) as H. destruct (case_run old) as [s|] eqn:E; [|contradiction]. destruct H as [_ H]. destruct (case_run_fit old s E) as (w & Ew & Ef).
  pose proof (tr_setup _ _ _ (case_trainable old)) as V.
  exists w, s. split; [apply enumerating_best_honest; exact V|]. split; [apply optimal_is_near, enumerating_best_optimal; exact V|]. split; [exact Ew|]. split; [exact Ef|]. split; [exact H|].
  split; [exact case_cart|]. split; [left; reflexivity|exact case_full].
Qed.

(** * The last condition of C69 is needed *)

(** Features 0, 1 and 2 are 0 or 1.  The CART tree tests feature 0 at the root, 1 on the left and 2 on the right and is right
    for all five samples.  Two further trees test features 1 and 2 at the root, where they are no candidates. *)
Definition m_X : list sample := [[0; 0; 1]; [0; 0; 1]; [1; 0; 1]; [0; 1; 0]; [1; 1; 0]]%Q.
Definition m_y : list nat := [0; 0; 1; 1; 0].
Definition m_final : cart := mkCart [1; 2; -1; -1; 5; -1; -1]%Z [4; 3; -1; -1; 6; -1; -1]%Z [0; 1; 0; 0; 2; 0; 0] [1 # 2; 1 # 2; -2; -2; 1 # 2; -2; -2]%Q.
Definition m_tree1 : cart := mkCart [1; 2; -1; -1; -1]%Z [4; 3; -1; -1; -1]%Z [1; 0; 0; 0; 0] [1 # 2; 1 # 2; -2; -2; -2]%Q.
Definition m_tree2 : cart := mkCart [1; -1; 3; -1; -1]%Z [2; -1; 4; -1; -1]%Z [2; 0; 0; 0; 0] [1 # 2; -2; 1 # 2; -2; -2]%Q.
Definition m_out := prepare 2 [] m_final [m_tree1; m_tree2] m_X m_y false 150 (fun _ => 0%Q).
Definition m_args : targs := match m_out with Ok out => prepared_args 2 m_y out (-1) (-1) 10 true false false | Err _ => ex1c_args false end.
Lemma m_experiment : experiment 2 [] m_final [m_tree1; m_tree2] m_X m_y.
Proof.
  constructor; try (cbn; auto; lia).
  - exists 3. split; [repeat constructor|]. apply Forall_cons; [|apply Forall_cons; [|apply Forall_cons; [|apply Forall_nil]]].
    + apply (cart_forb_ok _ _ _ [(0, 0); (1, 1); (2, 3); (3, 4); (4, 2); (5, 5); (6, 6)]). reflexivity.
    + apply (cart_forb_ok _ _ _ [(0, 0); (1, 1); (2, 3); (3, 4); (4, 2)]). reflexivity.
    + apply (cart_forb_ok _ _ _ [(0, 0); (1, 1); (2, 2); (3, 5); (4, 6)]). reflexivity.
  - exists m_final, 0. split; [left; reflexivity|]. exists 0, (1 # 2), 0. split; [constructor|]. split; [|split; reflexivity]. apply innerb_iff. reflexivity.
Qed.
Lemma m_initial : initial_kept 2 [] m_final.
Proof.
  split; [cbn; lia|]. intros h Hh. cbn in Hh. split; [apply Nat.leb_le; destruct h; reflexivity|]. left.
  assert (K1 : positioned m_final 1 1) by (apply (at_left _ 0 1 0); [constructor|apply kid_iff; reflexivity]).
  assert (K2 : positioned m_final 4 2) by (apply (at_right _ 0 4 0); [constructor|apply kid_iff; reflexivity]).
  destruct h as [|[|[|h]]]; [exists 0, (1 # 2), 0|exists 1, (1 # 2), 1|exists 2, (1 # 2), 4|lia];
    (split; [first [constructor|exact K1|exact K2]|]; split; [apply innerb_iff; reflexivity|split; reflexivity]).
Qed.
Lemma m_labels : contiguous m_y /\ exists a b, In a m_y /\ In b m_y /\ a <> b.
Proof.
  split; [intros t Ht; cbn in Ht; destruct t as [|[|t]]; cbn; auto; lia|]. exists 0, 1. split; [cbn; auto|split; [cbn; auto 6|discriminate]].
Qed.
Lemma m_cart : right_rows m_X m_y (cart_class m_final (fun i => if (i =? 2) || (i =? 5) then 0 else 1)) [0; 1; 2; 3; 4].
Proof. apply (cart_right_ok 4 m_final (fun i => if (i =? 2) || (i =? 5) then 0 else 1) m_X m_y). reflexivity. Qed.
(** The integer solver is exact, CP-SAT finds nothing. *)
Definition idle_best (x pi : nat -> Q) : fsolvers :=
  let e := enumerating_best x pi in
  mkFsv (fs_tree e) (fs_rand e) (fs_order e) (fs_streams e) (fun _ _ _ => (mkAnswer OTHER_STATUS 1 0 0, [])) (fs_mip e).
Lemma idle_best_honest u x pi : valid_setup u -> honest u (idle_best x pi).
Proof.
  intros V. destruct (enumerating_best_honest u x pi V) as [H1 H2 H3 H4 H5 H6]. constructor; auto.
  intros k st m. split; [constructor|]. cbn. unfold zero_gap_failure. cbn. intuition discriminate.
Qed.
Definition m_sv : fsolvers := idle_best (fun j => nth j [0; 0; 0; 0; 1; 1; 1; 1] 0)%Q (fun i => nth i [2; 1; 2; 1] 0)%Q.
Definition m_run : option (fstate tworld tduals path) :=
  match dtree_init m_args with
  | Ok w => match tree_fit m_sv m_args (fun _ => 0%Q) m_X m_y 3 (new_estimator w) with (s, Done tt) => Some s | _ => None end
  | Err _ => None end.
Lemma m_run_ok : match m_run with
  | Some s => tree_predict m_args [0; 1] s m_X = Ok [0; 0; 1; 0; 0] /\
      match tm_selected (tw_master (f_world s)) with Some sel => map (fun p => (p_leaf p, choices p)) sel =
        [(0, [(1, 0); (0, 1)]); (1, [(1, 0); (0, 1)]); (2, [(2, 0); (0, 2)]); (3, [(2, 0); (0, 2)])] | None => False end
  | None => False end.
Proof. vm_compute. auto. Qed.
Lemma m_run_fit s : m_run = Some s -> exists w, dtree_init m_args = Ok w /\ tree_fit m_sv m_args (fun _ => 0%Q) m_X m_y 3 (new_estimator w) = (s, Done tt).
Proof.
  unfold m_run. destruct (dtree_init m_args) as [w|]; [|discriminate]. intros E. exists w. split; auto.
  destruct (tree_fit _ _ _ _ _ _ _) as [s' [[]| |]]; try discriminate. congruence.
Qed.
Lemma m_prepared : exists out, prepare 2 [] m_final [m_tree1; m_tree2] m_X m_y false 150 (fun _ => 0%Q) = Ok out /\ m_args = prepared_args 2 m_y out (-1) (-1) 10 true false false /\
  valid_setup (fit_setup (prepared_args 2 m_y out (-1) (-1) 10 true false false) m_X m_y).
Proof.
  pose proof (C68_prepares 2 [] m_final [m_tree1; m_tree2] m_X m_y false 150 (fun _ => 0%Q) m_experiment) as H. unfold m_args, m_out. revert H.
  generalize (prepare 2 [] m_final [m_tree1; m_tree2] m_X m_y false 150 (fun _ => 0%Q)). intros o (out & -> & H). exists out. split; [reflexivity|]. split; [reflexivity|].
  destruct (H (-1)%Z (-1)%Q 10 true false false) as (_ & _ & _ & V & _). exact V.
Qed.
Lemma m_no_tree u tree sel : map (fun p => (p_leaf p, choices p)) sel = [(0, [(1, 0); (0, 1)]); (1, [(1, 0); (0, 1)]); (2, [(2, 0); (0, 2)]); (3, [(2, 0); (0, 2)])] -> ~ forms_tree u tree sel.
Proof.
  intros E (_ & _ & Ha). destruct sel as [|p0 [|p1 [|p2 [|p3 l]]]]; try discriminate. injection E as _ E0 _ _ _ E2 _ _ _. rewrite Forall_forall in Ha.
  assert (T0 : 1 = tree 0) by (apply (Ha p0 (or_introl eq_refl)); rewrite E0; cbn; auto).
  assert (T2 : 2 = tree 0) by (apply (Ha p2 (or_intror (or_intror (or_introl eq_refl)))); rewrite E2; cbn; auto). congruence.
Qed.
(** The estimator selects half of each further tree: the selected paths form no tree, the last two samples
    follow none of them, and CART is right for more samples. *)
Theorem C69_extra_needed : exists d cs final extra X y clk out sv w0 s' sel label rs,
  experiment d cs final extra X y /\ initial_kept d cs final /\ steady clk /\ contiguous y /\ (exists a b, In a y /\ In b y /\ a <> b) /\
  prepare d cs final extra X y false 150 clk = Ok out /\
  let A := prepared_args d y out (-1) (-1) 10 true false false in
  honest (fit_setup A X y) sv /\ optimal_selection (fit_setup A X y) sv /\ dtree_init A = Ok w0 /\
  tree_fit sv A clk X y 3 (new_estimator w0) = (s', Done tt) /\
  tm_selected (tw_master (f_world s')) = Some sel /\ (forall tree, ~ forms_tree (fit_setup A X y) tree sel) /\
  y = [0; 0; 1; 1; 0] /\ tree_predict A [0; 1] s' X = Ok [0; 0; 1; 0; 0] /\
  right_rows X y (cart_class final label) rs /\ length rs = 5.
Proof.
  destruct m_prepared as (out & Eo & Ea & V). pose proof m_run_ok as H. destruct m_run as [s|] eqn:E; [|contradiction]. destruct (m_run_fit s E) as (w & Ew & Ef). destruct H as [Hp Hs].
  destruct (tm_selected (tw_master (f_world s))) as [sel|] eqn:Esel; [|contradiction].
  exists 2, [], m_final, [m_tree1; m_tree2], m_X, m_y, (fun _ => 0%Q), out, m_sv, w, s, sel, (fun i => if (i =? 2) || (i =? 5) then 0 else 1), [0; 1; 2; 3; 4].
  rewrite Ea in Ew, Ef, Hp.
  split; [exact m_experiment|]. split; [exact m_initial|]. split; [apply (flat_steady 0)|]. split; [apply m_labels|]. split; [apply m_labels|]. split; [exact Eo|]. cbv zeta.
  split; [apply idle_best_honest; exact V|]. split; [apply (enumerating_best_optimal _ (fun j => nth j [0; 0; 0; 0; 1; 1; 1; 1] 0)%Q (fun i => nth i [2; 1; 2; 1] 0)%Q V)|].
  split; [exact Ew|]. split; [exact Ef|]. split; [exact Esel|]. split; [intros tree; apply m_no_tree; exact Hs|]. split; [reflexivity|]. split; [exact Hp|]. split; [exact m_cart|reflexivity].
Qed.
Print Assumptions C69_extra_needed.

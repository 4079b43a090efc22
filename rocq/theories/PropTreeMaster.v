(** Claims about the tree master problem over its whole history (DTreeMasterProblem). *)
From Verif Require Import Base Lp LpProofs LpCheck TreeModel SpecTree TreeGeoProofs TreePathProofs TreeLpBuild TreeBuildProofs TreeGenProofs
  TreeInvProofs TreeOpProofs TreeCutProofs TreeFormProofs SpecTreeRun TreeRunProofs TreeMasterProofs PropTree.
Open Scope nat_scope.

(** * C36: the solver model is the path formulation after every history *)

(** The paths in the model are the initial paths and the added columns, in order (with the variable indices as ids); the
    row constraints are for rows that are not removed, and for all of them unless rows are added as cuts. *)
Theorem C36_formulation : forall u ops cuts s, valid_setup u -> after u ops cuts s ->
  exists rws kinds cv rows, formulated u rws cuts kinds cv s /\
    Forall2 (fun p q => q = with_id p (p_id q)) (su_paths u ++ columns ops) (tm_paths s) /\
    tm_rows s = Some rows /\ length rows = length (su_X u) /\
    (forall r, In r rws -> exists dr, nth_error rows r = Some dr /\ r_gone dr = false) /\
    (su_beta u = false -> forall r dr, nth_error rows r = Some dr -> r_gone dr = false -> In r rws) /\
    match su_rows u with
    | Some given => map r_gone rows = map r_gone given
    | None => Forall (fun dr => r_gone dr = (length (r_leaves dr) <=? 2)) rows
    end.
Proof.
  intros u ops cuts s V A. destruct (after_inv u ops cuts s V A) as (kinds & H & _ & _ & _ & _ & P & rows & Hr & Hlen & Hg & Hb & Hm).
  exists (rows_of kinds), kinds, (cv_of (tm_ns_vars s)), rows. split; [apply after_formulated; auto|]. split; auto. split; auto. split; auto.
  split; [intros r Hin; apply Hg, rows_of_In; auto|]. split; [intros; apply rows_of_In; eauto|].
  destruct (su_rows u) as [given|].
  - clear - Hm. induction Hm as [|a b l m (_ & _ & _ & _ & E & _) F IH]; simpl; congruence.
  - destruct Hm as (rs0 & ps & F & G). apply Forall_forall. intros dr Hin. destruct (Forall2_In_l _ _ _ _ F Hin) as (dr' & Hin' & Hs).
    destruct (Forall2_In_r _ _ _ _ G Hin') as (x & _ & Hrec). destruct Hs as (_ & E1 & _ & _ & E2 & _).
    destruct Hrec as (_ & _ & _ & _ & Hgone & _). congruence.
Qed.
Print Assumptions C36_formulation.

(** Nothing the classifier does with the master problem fails: generating it, adding a path, solving the LP. *)
Theorem C36_total : forall u, valid_setup u ->
  (exists s, after u [] [] s) /\
  (forall ops cuts s p, after u ops cuts s -> plain_path (su_depth u) (su_splits u) p -> exists s', after u (ops ++ [Column p]) cuts s') /\
  (forall ops cuts s sv, after u ops cuts s -> sound_solvers sv -> exists new s', after u (ops ++ [Solve sv]) (cuts ++ new) s').
Proof.
  assert (Snoc : forall ops o s0 cuts s c s', run_ops ops s0 = Ok (cuts, s) -> do_op o s = Ok (c, s') -> run_ops (ops ++ [o]) s0 = Ok (cuts ++ c, s')).
  { induction ops as [|a ops IH]; intros o s0 cuts s c s' E1 E2.
    - cbn [run_ops app] in *. injection E1 as <- <-. rewrite E2. cbn [bind]. rewrite app_nil_r. reflexivity.
    - cbn [run_ops app] in *. destruct (do_op a s0) as [[c1 s1]|]; [|discriminate]. cbn [bind] in *.
      destruct (run_ops ops s1) as [[c2 s2]|] eqn:E3; [|discriminate]. cbn [bind] in *. injection E1 as <- <-.
      rewrite (IH _ _ _ _ _ _ E3 E2). cbn [bind]. rewrite app_assoc. reflexivity. }
  intros u V. pose proof V as (wf & Hp & _). split; [|split].
  - destruct (generate_mp_ok _ _ _ _ wf (su_paths u) (su_beta u) (su_gen u) (su_rounds u) (su_rows u) (su_y u) Hp (rows_arg_ok u V))
      as (s0 & k0 & E0 & _). exists s0. split; [constructor|]. exists s0. split; auto.
  - intros ops cuts s p A Hpl. destruct (after_inv u ops cuts s V A) as (kinds & H & _).
    destruct (add_column_ok _ _ _ _ wf kinds cuts s p H Hpl) as (s' & E & _). exists s'. destruct A as (Hl & s0 & E0 & E1).
    split; [apply Forall_app; auto|]. exists s0. split; auto. rewrite <- (app_nil_r cuts). eapply Snoc; eauto. cbn [do_op]. rewrite E. reflexivity.
  - intros ops cuts s sv A Hsv. destruct (after_inv u ops cuts s V A) as (kinds & H & _).
    destruct (solve_rmp_ok _ _ _ _ wf sv kinds cuts s Hsv H) as (k' & new & s' & dl & j & E & _ & _ & _ & En & _). exists new, s'.
    destruct A as (Hl & s0 & E0 & E1). split; [apply Forall_app; auto|]. exists s0. split; auto. eapply Snoc; eauto.
    cbn [do_op]. rewrite E. cbn [bind]. rewrite En. reflexivity.
Qed.
Print Assumptions C36_total.

(** * C41: cuts *)

(** The cuts added from the LP solution [x] are equality constraints with right-hand side 1 that [x] exceeds, with
    coefficient 1 for exactly the paths the artificial row follows. *)
Theorem C41_violated : forall u ops cuts s x sols, valid_setup u -> after u ops cuts s -> sound_cuts sols ->
  exists new s' cons, add_cuts sols (store_lp_solution x s) = Ok (new, s') /\ with_new_cons (tm_lp s) (tm_lp s') cons /\
    tm_paths s' = tm_paths s /\
    Forall2 (fun z k => c_lb k = Some 1%Q /\ c_ub k = Some 1%Q /\ (1 + teps < activity (tm_lp s') k x)%Q /\
               forall p, In p (tm_paths s) ->
                 (covers (su_X u) (su_leaves u) (su_splits u) (KCut z) p -> (c_coef k (p_id p) == 1)%Q) /\
                 (~ covers (su_X u) (su_leaves u) (su_splits u) (KCut z) p -> (c_coef k (p_id p) == 0)%Q)) new cons.
Proof.
  intros u ops cuts s x sols V A Hs. destruct (after_inv u ops cuts s V A) as (kinds & H & _). pose proof V as (wf & _).
  destruct (tinv_store _ _ _ _ _ _ _ x H) as [H1 Hx].
  destruct (add_cuts_ok _ _ _ _ wf x kinds cuts _ sols H1 Hx) as (new & m & sp & ad & cs & s' & E & -> & H2 & Hc); [intros; apply Hs|].
  set (s' := with_cons (store_lp_solution x s) m sp (tm_row_cons (store_lp_solution x s)) ad cs) in *.
  assert (Fr : frame s s') by (repeat split).
  destruct (tinv_grow _ _ _ _ wf kinds (map KCut new) cuts (cuts ++ new) s s' H H2 Fr) as (cons & Hw & Hlen & Hact).
  exists new, s', cons. split; auto. split; auto. split; auto.
  pose proof (after_formulated u _ _ _ V H2) as F. destruct Hw as (_ & _ & _ & _ & old & Eold & Hold).
  apply Forall2_intro_nth; [rewrite Hlen, map_length; auto|]. intros i z k Hz Hk.
  assert (Hzk : nth_error (map KCut new) i = Some (KCut z)) by (rewrite nth_error_map, Hz; reflexivity).
  assert (Ek : nth_error (kinds ++ map KCut new) (length kinds + i) = Some (KCut z)).
  { rewrite nth_error_app2 by lia. rewrite Nat.add_comm, Nat.add_sub. auto. }
  assert (Elen : length kinds = length old).
  { pose proof (Forall2_length' _ _ _ (fm_cons _ _ _ _ _ _ _ _ _ _ F)) as El. rewrite Eold, !app_length, map_length in El.
    rewrite map_length in Hlen. lia. }
  destruct (Forall2_nth_error _ _ _ _ _ (fm_cons _ _ _ _ _ _ _ _ _ _ F) Ek) as (k' & Hk' & HB & HP & _).
  assert (k' = k).
  { rewrite Eold, nth_error_app2, Elen, Nat.add_comm, Nat.add_sub in Hk' by lia. congruence. }
  subst k'. cbn [kind_bounds] in HB. injection HB as -> ->. split; auto. split; auto. split; auto.
  rewrite (Hact i (KCut z) k x Hzk Hk) by auto. rewrite Forall_forall in Hc. destruct (Hc z) as (cut & Hcut); [eapply nth_error_In; eauto|].
  apply (cut_sum _ _ _ _ kinds cuts (store_lp_solution x s) x cut z H1 Hcut).
Qed.
Print Assumptions C41_violated.

(** Also for paths added later, the coefficient of a cut is 1 exactly for the paths its artificial row follows. *)
Theorem C41_later_columns : forall u ops cuts s z, valid_setup u -> after u ops cuts s -> In z cuts ->
  exists k, In k (lp_cons (tm_lp s)) /\ c_lb k = Some 1%Q /\ c_ub k = Some 1%Q /\
    forall p, In p (tm_paths s) ->
      (covers (su_X u) (su_leaves u) (su_splits u) (KCut z) p -> (c_coef k (p_id p) == 1)%Q) /\
      (~ covers (su_X u) (su_leaves u) (su_splits u) (KCut z) p -> (c_coef k (p_id p) == 0)%Q).
Proof.
  intros u ops cuts s z V A Hz. destruct (after_inv u ops cuts s V A) as (kinds & H & _). pose proof (after_formulated u _ _ _ V H) as F.
  apply (fm_cuts _ _ _ _ _ _ _ _ _ _ F) in Hz. apply In_nth_error in Hz. destruct Hz as [i Hi].
  destruct (Forall2_nth_error _ _ _ _ _ (fm_cons _ _ _ _ _ _ _ _ _ _ F) Hi) as (k & Hk & HB & HP & _).
  injection HB as HB1 HB2. exists k. split; [eapply nth_error_In; eauto|]. auto.
Qed.
Print Assumptions C41_later_columns.

(** Every decision tree meets every cut and every row constraint (a row constraint even with equality). *)
Theorem C41_trees : forall u ops cuts s rws kinds cv tree x i k, valid_setup u -> after u ops cuts s ->
  formulated u rws cuts kinds cv s -> tree_solution (su_depth u) (su_splits u) tree (tm_paths s) x ->
  (exists z, nth_error kinds i = Some (KCut z)) \/ (exists r, r < length (su_X u) /\ nth_error kinds i = Some (KRow r)) ->
  nth_error (lp_cons (tm_lp s)) i = Some k -> (activity (tm_lp s) k x == 1)%Q.
Proof.
  intros u ops cuts s rws kinds cv tree x i k V A F T Hi Hk.
  assert (Hn : NoDup (tm_paths s)) by (apply (NoDup_map_inv' p_id), (fm_path_ids _ _ _ _ _ _ _ _ _ _ F)).
  destruct Hi as [[z Hi]|(r & Hr & Hi)].
  - rewrite (form_activity _ _ _ _ _ _ _ _ _ _ F i (KCut z) k x Hi Hk).
    rewrite (tree_solution_sum (su_depth u) (su_splits u) tree (tm_paths s) x _ (fun k => nth k z false)); auto; [lra|].
    intros p Hp Ht. rewrite covb_iff. cbn [covers]. unfold su_leaves. destruct Ht as [Hl _]. rewrite (complete_leaves_nth _ _ Hl). split.
    + intros (lf & E & Hf). injection E as <-. auto.
    + intros Hf. eauto.
  - rewrite (form_activity _ _ _ _ _ _ _ _ _ _ F i (KRow r) k x Hi Hk).
    destruct (nth_error (su_X u) r) as [xr|] eqn:Er; [|apply nth_error_None in Er; lia].
    rewrite (tree_solution_sum (su_depth u) (su_splits u) tree (tm_paths s) x _ (goes_left (su_splits u) xr)); auto; [lra|].
    intros p Hp Ht. rewrite covb_iff. cbn [covers]. unfold su_leaves. destruct Ht as [Hl _]. rewrite (complete_leaves_nth _ _ Hl), Er. split.
    + intros (x' & lf & E1 & E2 & Hf). injection E1 as <-. injection E2 as <-. auto.
    + intros Hf. eauto.
Qed.
Print Assumptions C41_trees.

(** * C42: row cuts *)

Theorem C42_row_cuts : forall u ops cuts s x, valid_setup u -> after u ops cuts s ->
  exists num s' rws new kinds cv rows, add_beta_cuts (store_lp_solution x s) = Ok (num, s') /\
    formulated u rws cuts kinds cv s /\ formulated u (rws ++ new) cuts (kinds ++ map KRow new) cv s' /\
    tm_paths s' = tm_paths s /\ tm_rows s = Some rows /\
    num = length new /\ num <= 10 /\ NoDup new /\
    (forall r, In r new -> ~ In r rws /\ (exists dr, nth_error rows r = Some dr /\ r_gone dr = false) /\
       exists v, covered_sum (su_X u) (su_leaves u) (su_splits u) (KRow r) (tm_paths s) x v /\ (teps < Qabs (v - 1))%Q) /\
    (num < 10 -> forall r dr v, nth_error rows r = Some dr -> r_gone dr = false -> ~ In r (rws ++ new) ->
       covered_sum (su_X u) (su_leaves u) (su_splits u) (KRow r) (tm_paths s) x v -> (Qabs (v - 1) <= teps)%Q).
Proof.
  intros u ops cuts s x V A. destruct (after_inv u ops cuts s V A) as (kinds & H & _ & _ & _ & _ & _ & rows & Hrows & Hlen & _).
  pose proof V as (wf & _). destruct (tinv_store _ _ _ _ _ _ _ x H) as [H1 Hx].
  destruct (add_beta_cuts_ok _ _ _ _ x kinds cuts _ H1 Hx) as (num & s' & E).
  destruct (add_beta_cuts_inv _ _ _ _ kinds cuts _ num s' H1 E) as (new & rows' & m & cs & added & Hr & Es & H2 & Hn & Hv & Hd & Hten & Hall).
  cbn [store_lp_solution tm_rows] in Hr. assert (rows' = rows) by congruence. subst rows'.
  assert (Hnd : NoDup (tm_paths s)) by (eapply (NoDup_map_inv' p_id), tm_path_ids; eauto).
  exists num, s', (rows_of kinds), new, kinds, (cv_of (tm_ns_vars s)), rows. split; auto. split; [apply after_formulated; auto|].
  assert (Enew : rows_of (map KRow new) = new).
  { clear. induction new; simpl; congruence. }
  split.
  { pose proof (after_formulated u _ _ _ V H2) as F. unfold rows_of in *. rewrite flat_map_app in F.
    unfold rows_of in Enew. rewrite Enew in F. rewrite Es in F |- *. exact F. }
  split; [rewrite Es; reflexivity|]. split; auto. split; auto. split; auto. split; auto. split.
  - intros r Hin. destruct (Hv r Hin) as (A1 & A2 & A3). split; [rewrite rows_of_In; auto|]. split.
    + destruct A3 as (dr & Hdr & Hg & _). eauto.
    + exists (qsum (fun p => if covb (su_X u) (su_leaves u) (su_splits u) (KRow r) p then x (p_id p) else 0) (tm_paths s))%Q.
      split; [apply covered_sum_iff; auto; reflexivity|]. exact (row_violated_off _ _ _ _ kinds cuts (store_lp_solution x s) x rows r H1 Hx Hrows A3).
  - intros Hlt r dr v Hdr Hg Hni Hs. rewrite <- Enew in Hni. unfold rows_of in Hni. rewrite <- flat_map_app in Hni. fold (rows_of (kinds ++ map KRow new)) in Hni.
    rewrite rows_of_In in Hni. apply covered_sum_iff in Hs; auto.
    destruct (Hall Hlt r dr) as (dr' & Hdr' & Hg' & Hvio); auto.
    { rewrite <- Hlen. apply nth_error_Some. congruence. }
    destruct (row_violated_sum _ _ _ _ x kinds cuts _ rows r dr' H1 Hx Hrows Hdr') as (b & Eb & Hb).
    assert (b = false) by congruence. subst b. rewrite Hs. apply Qnot_lt_le. intros Hc.
    assert (false = true) by (apply Hb; exact Hc). discriminate.
Qed.
Print Assumptions C42_row_cuts.

(** * C51: cut rounds and reported duals *)

Theorem C51_solve_rmp : forall u ops cuts s sv, valid_setup u -> after u ops cuts s -> sound_solvers sv ->
  exists dl s' rounds rws kinds rws' kinds' cv, solve_rmp sv s = Ok (dl, s') /\
    formulated u rws cuts kinds cv s /\ formulated u rws' (cuts ++ d_new_cuts dl) kinds' cv s' /\
    (exists extra, kinds' = kinds ++ extra) /\ tm_paths s' = tm_paths s /\
    (* constraints are added only in every tenth call, in at most [su_rounds] rounds after optimal solves *)
    ((S (solves ops)) mod 10 <> 0 -> tm_lp s' = tm_lp s /\ d_new_cuts dl = []) /\
    rounds <= su_rounds u /\ strengthened sv rounds (tm_lp s) (tm_lp s') /\
    (* the duals are those of the last solve, or absent if that was not optimal *)
    ((exists x pi call, tv_lp sv call (tm_lp s') = Some (x, pi) /\ tm_obj s' = objective_value (tm_lp s') x /\ rmp_objective_improved s' = Qltb (tm_obj s) (tm_obj s') /\
        exists pos, reports (2 ^ su_depth u) (length (su_X u)) kinds' (cuts ++ d_new_cuts dl) pos pi dl) \/
     (d_leaf dl = [] /\ d_row dl = [] /\ d_ns dl = [] /\ d_cut dl = [] /\ rmp_objective_improved s' = false)).
Proof.
  intros u ops cuts s sv V A Hsv. destruct (after_inv u ops cuts s V A) as (kinds & H & _ & _ & Hrd & Hit & _).
  pose proof V as (wf & _).
  destruct (solve_rmp_ok _ _ _ _ wf sv kinds cuts s Hsv H) as (k' & new & s' & dl & j & E & H' & Fr & Gr & En & Ei & Ep & Hj & St & Hno & Ha).
  exists dl, s', j, (rows_of kinds), kinds, (rows_of k'), k', (cv_of (tm_ns_vars s)). split; auto. split; [apply after_formulated; auto|].
  destruct Fr as (f1 & f2 & f3 & f4 & f5 & f6 & f7). split; [rewrite En, <- f7; apply after_formulated; auto|].
  split; [destruct Gr as (e & -> & _); eauto|]. split; auto. rewrite Hit in *. split; [|split; [|split; auto]].
  - intros Hm. apply Nat.eqb_neq in Hm. destruct (Hno Hm) as (_ & -> & El). auto.
  - rewrite Hrd in Hj. destruct (S (solves ops) mod 10 =? 0); lia.
  - destruct (tm_answer s') as [[x pi]|] eqn:Ea.
    + left. destruct Ha as ((i & Hc) & Ho & Hr & _). exists x, pi, i. split; auto. split; auto. split.
      * unfold rmp_objective_improved. rewrite Ea, Ep. reflexivity.
      * exists (tm_cut_cons s'). rewrite En. auto.
    + right. subst dl. cbn. unfold rmp_objective_improved. rewrite Ea. auto.
Qed.
Print Assumptions C51_solve_rmp.

(** * A concrete history *)

Definition ex_nodes : list node :=
  [mkNode 0 [0; 1] None 0 0 false; mkNode 1 [1; 2] None 0 0 false; mkNode 2 [1; 2] None 0 0 false].
Definition ex_setup (beta : bool) : setup := mkSetup 2 ex_X [0; 1; 1; 0] ex_nodes ex_splits ex_paths beta true 3 None.
(** CP-SAT reports the artificial row that goes left everywhere. *)
Definition ex_sols (cm : cutmodel) (_ : list Z) : list ((nat -> bool) * (nat -> bool)) :=
  [(fun i => forallb (lit_holds (fun _ => true)) (nth i (cm_paths cm) []), fun _ => true)].
Definition ex_sv : tsolvers := mkTsv (fun _ _ => Some (fun _ => 2%Q, fun i => inject_Z (Z.of_nat i))) (fun _ => ex_sols) (fun _ _ => None).
Definition ex_new : path := mkPath 0 [1; 0] [2; 1] 2 0 0%Z false.
Definition ex_ops : list mop := [Store (fun _ => 1 # 2); RowCuts; Column ex_new; Store (fun _ => 2%Q); Cuts ex_sols; Column ex_new; Solve ex_sv].

Lemma ex_wf : wf_tree 2 ex_X ex_nodes ex_splits.
Proof.
  destruct C35_case as (Hr & Hf & _). split; auto.
  - simpl. lia.
  - split; [reflexivity|]. intros [|[|[|i]]] n E; simpl in E; try (injection E as <-; reflexivity). destruct i; discriminate.
  - intros n Hn. simpl in Hn. repeat (destruct Hn as [<-|Hn]; [split; simpl; repeat constructor; simpl; intuition lia|]). contradiction.
  - intros [|[|[|k]]] s E; simpl in E; try (injection E as <-; reflexivity). destruct k; discriminate.
  - intros i j s t Ei Ej Hne. assert (Hb : forall n s, nth_error ex_splits n = Some s -> n < 3) by (intros n s0 En; apply (nth_error_Some ex_splits n); congruence).
    pose proof (Hb _ _ Ei). pose proof (Hb _ _ Ej).
    destruct i as [|[|[|i]]]; [| | |lia]; (destruct j as [|[|[|j]]]; [| | |lia]); try congruence;
      simpl in Ei, Ej; injection Ei as <-; injection Ej as <-; simpl; intros Ef; try discriminate Ef; intros Eq; vm_compute in Eq; discriminate.
  - intros s Hs. simpl in Hs. repeat (destruct Hs as [<-|Hs]; [split; reflexivity|]). contradiction.
Qed.
Lemma ex_sols_sound : sound_cuts ex_sols.
Proof.
  intros cm objective. constructor; [|constructor]. split; cbn [fst snd]; auto. intros i lits Hi. rewrite (nth_error_nth _ _ _ Hi). reflexivity.
Qed.
Lemma ex_valid beta : valid_setup (ex_setup beta).
Proof.
  split; [apply ex_wf|]. split; [|exact I]. apply Forall_forall. intros p Hp. simpl in Hp.
  repeat (destruct Hp as [<-|Hp]; [repeat split; simpl; try lia; repeat constructor; simpl; lia|]). contradiction.
Qed.
Lemma ex_legal : Forall (legal 2 ex_splits) ex_ops.
Proof.
  assert (plain_path 2 ex_splits ex_new) by (repeat split; simpl; try lia; repeat constructor; simpl; lia).
  apply Forall_forall. intros o Ho. simpl in Ho.
  repeat (destruct Ho as [<-|Ho]; [cbn [legal]; first [exact I|exact H|exact ex_sols_sound|exact (fun _ => ex_sols_sound)]|]). contradiction.
Qed.

Definition run_setup (u : setup) (ops : list mop) : res (list (list bool) * tmaster) :=
  let* s0 := generate_mp (su_X u) (su_y u)
    (tmaster_init (su_paths u) (su_leaves u) (su_nodes u) (su_splits u) (su_beta u) (su_gen u) (su_rounds u) (su_rows u)) in
  run_ops ops s0.
Lemma run_setup_after u ops cuts s : Forall (legal (su_depth u) (su_splits u)) ops -> run_setup u ops = Ok (cuts, s) -> after u ops cuts s.
Proof.
  intros Hl E. split; auto. unfold run_setup in E. destruct (generate_mp _ _ _) as [s0|] eqn:E0; [|discriminate]. exists s0. auto.
Qed.

(** With rows as cuts: the row that is not removed becomes a constraint, one cut is added, then two more columns. *)
Example C36_case : exists s, after (ex_setup true) ex_ops [[true; true; true]] s /\ length (tm_paths s) = 6 /\
  num_vars (tm_lp s) = 12 /\ num_cons (tm_lp s) = 4 + 16 + 1 + 1.
Proof.
  assert (V : match run_setup (ex_setup true) ex_ops with
              | Ok (cuts, s) => Some (cuts, length (tm_paths s), num_vars (tm_lp s), num_cons (tm_lp s))
              | Err _ => None end = Some ([[true; true; true]], 6, 12, 22)) by (vm_compute; reflexivity).
  destruct (run_setup (ex_setup true) ex_ops) as [[cuts s]|] eqn:E; [|discriminate V]. injection V as -> H1 H2 H3.
  exists s. split; [|split; [exact H1|split; [exact H2|exact H3]]]. apply run_setup_after; [exact ex_legal|exact E].
Qed.
Example C36_case_rows : exists s, after (ex_setup false) [] [] s /\ num_cons (tm_lp s) = 4 + 16 + 1.
Proof.
  assert (V : match run_setup (ex_setup false) [] with Ok (cuts, s) => Some (cuts, num_cons (tm_lp s)) | Err _ => None end = Some ([], 21))
    by (vm_compute; reflexivity).
  destruct (run_setup (ex_setup false) []) as [[cuts s]|] eqn:E; [|discriminate V]. injection V as -> H1. exists s. split; [|exact H1]. apply run_setup_after; [constructor|exact E].
Qed.

(** The tenth solve adds the row cut in its first round and one cut in each of the other two; the ninth adds nothing. *)
Example C51_case : exists s9 s10 dl, after (ex_setup true) (repeat (Solve ex_sv) 9) [] s9 /\ num_cons (tm_lp s9) = 4 + 16 /\
  solve_rmp ex_sv s9 = Ok (dl, s10) /\ num_cons (tm_lp s10) = 4 + 16 + 1 + 2 /\
  d_new_cuts dl = [[true; true; true]; [true; true; true]] /\ d_row dl = [0; 20; 0; 0]%Q /\ d_cut dl = [21; 22]%Q.
Proof.
  assert (V : match run_setup (ex_setup true) (repeat (Solve ex_sv) 9) with
              | Ok (cuts, s) => match solve_rmp ex_sv s with
                                | Ok (dl, s10) => Some (cuts, num_cons (tm_lp s), num_cons (tm_lp s10), d_new_cuts dl, d_row dl, d_cut dl)
                                | Err _ => None end
              | Err _ => None end = Some ([], 20, 23, [[true; true; true]; [true; true; true]], [0; 20; 0; 0]%Q, [21; 22]%Q))
    by (vm_compute; reflexivity).
  destruct (run_setup (ex_setup true) (repeat (Solve ex_sv) 9)) as [[cuts s]|] eqn:E; [|discriminate V].
  destruct (solve_rmp ex_sv s) as [[dl s10]|] eqn:Es; [|discriminate V]. injection V as -> Hn Hn' Hc Hr Hcd.
  exists s, s10, dl. split; [|split; [exact Hn|split; [exact Es|split; [exact Hn'|split; [exact Hc|split; [exact Hr|exact Hcd]]]]]]. apply run_setup_after.
  - apply Forall_forall. intros o Ho. apply repeat_spec in Ho. subst o. intros n. exact ex_sols_sound.
  - exact E.
Qed.

(** A cut for the artificial row that goes left everywhere (all paths have value 2), and the constraint of row 1 (value 1/2 on every path). *)
Example C41_case : exists s new s', after (ex_setup true) [] [] s /\ sound_cuts ex_sols /\ add_cuts ex_sols (store_lp_solution (fun _ => 2%Q) s) = Ok (new, s') /\
  new = [[true; true; true]] /\ num_cons (tm_lp s') = S (num_cons (tm_lp s)).
Proof.
  assert (V : match run_setup (ex_setup true) [] with
              | Ok (cuts, s) => match add_cuts ex_sols (store_lp_solution (fun _ => 2%Q) s) with Ok (new, s') => Some (cuts, new, num_cons (tm_lp s'), num_cons (tm_lp s)) | Err _ => None end
              | Err _ => None end = Some ([], [[true; true; true]], 21, 20)) by (vm_compute; reflexivity).
  destruct (run_setup (ex_setup true) []) as [[cuts s]|] eqn:E; [|discriminate V]. destruct (add_cuts _ _) as [[new s']|] eqn:Ec; [|discriminate V]. injection V as -> H1 H2 H3.
  exists s, new, s'. split; [apply run_setup_after; [constructor|exact E]|]. split; [exact ex_sols_sound|]. split; [exact Ec|]. split; [exact H1|]. rewrite H2, H3. reflexivity.
Qed.
Example C42_case : exists s s', after (ex_setup true) [] [] s /\ add_beta_cuts (store_lp_solution (fun _ => 1 # 2)%Q s) = Ok (1, s') /\ num_cons (tm_lp s') = S (num_cons (tm_lp s)).
Proof.
  assert (V : match run_setup (ex_setup true) [] with
              | Ok (cuts, s) => match add_beta_cuts (store_lp_solution (fun _ => 1 # 2)%Q s) with Ok (n, s') => Some (cuts, n, num_cons (tm_lp s'), num_cons (tm_lp s)) | Err _ => None end
              | Err _ => None end = Some ([], 1, 21, 20)) by (vm_compute; reflexivity).
  destruct (run_setup (ex_setup true) []) as [[cuts s]|] eqn:E; [|discriminate V]. destruct (add_beta_cuts _) as [[n s']|] eqn:Ec; [|discriminate V]. injection V as -> -> H2 H3.
  exists s, s'. split; [apply run_setup_after; [constructor|exact E]|]. split; [exact Ec|]. rewrite H2, H3. reflexivity.
Qed.

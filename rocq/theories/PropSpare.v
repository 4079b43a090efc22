(** C74: removing the generated paths from the master problem. *)
From Verif Require Import Base Lp LpProofs LpCheck TreeModel SpecTree TreeGeoProofs TreePathProofs TreeLpBuild TreeInvProofs TreeFormProofs
  TreeBuildProofs SpecTreeRun TreeRunProofs TreeMasterProofs SpecTreeLp TreeLpProofs ExpModel SpecExp ExpCartProofs
  PrepMergeProofs SpareModel PropTreeMaster PropTreeLp PropExp.
Open Scope nat_scope.

Definition closes (ps : list path) (j : nat) : bool := existsb (fun p => negb (p_initial p) && (p_id p =? j)) ps.
Lemma closes_iff ps j : closes ps j = true <-> exists p, In p ps /\ p_initial p = false /\ p_id p = j.
Proof.
  unfold closes. rewrite existsb_exists. split; intros (p & H & E); exists p; split; auto.
  - apply andb_true_iff in E. destruct E as [E1 E2]. apply negb_true_iff in E1. apply Nat.eqb_eq in E2. auto.
  - destruct E as [-> ->]. rewrite Nat.eqb_refl. reflexivity.
Qed.
Definition closed (b : bool) (k : lpvar) : lpvar := if b then mkVar (v_lb k) (Some 0%Q) (v_int k) else k.
Lemma remove_loop ps : forall m, Forall (fun p => p_id p < num_vars m) ps ->
  exists m', for_each ps (fun p m => if p_initial p then Ok m
                else if p_id p <? num_vars m then Ok (set_ub (p_id p) 0%Q m) else Err IndexError) m = Ok m' /\
    lp_obj m' = lp_obj m /\ lp_off m' = lp_off m /\ lp_max m' = lp_max m /\ lp_cons m' = lp_cons m /\ num_vars m' = num_vars m /\
    forall j, nth_error (lp_vars m') j = option_map (closed (closes ps j)) (nth_error (lp_vars m) j).
Proof.
  induction ps as [|p ps IH]; intros m H; cbn [for_each].
  - exists m. repeat split; auto. intros j. cbn. destruct (nth_error (lp_vars m) j); reflexivity.
  - inversion H as [|? ? H1 H2]; subst. destruct (p_initial p) eqn:E; cbn [bind].
    + destruct (IH m H2) as (m' & E' & A1 & A2 & A3 & A4 & A5 & A6). exists m'. repeat split; auto. intros j. rewrite A6. cbn [closes existsb].
      rewrite E. reflexivity.
    + destruct (Nat.ltb_spec (p_id p) (num_vars m)) as [_|?]; [|lia]. cbn [bind].
      destruct (IH (set_ub (p_id p) 0%Q m)) as (m' & E' & A1 & A2 & A3 & A4 & A5 & A6).
      { unfold num_vars. cbn. rewrite map_nth_length. exact H2. }
      exists m'. rewrite E'. repeat split; auto.
      * rewrite A5. unfold num_vars. cbn. apply map_nth_length.
      * intros j. rewrite A6. unfold set_ub. cbn [lp_vars closes existsb]. rewrite map_nth_nth_error, E. cbn [negb andb].
        rewrite (Nat.eqb_sym j). destruct (nth_error (lp_vars m) j) as [k|]; destruct (p_id p =? j); cbn; auto.
        unfold closes, closed. destruct (existsb _ ps); reflexivity.
Qed.

(** C74: remove_gen_vars succeeds in every state of the master problem and changes nothing but the bounds of its variables: the
    solutions of the new LP (integer program) are those of the old one that give the value 0 to every path that is not marked as
    initial; their objective values are the same. *)
Theorem C74_restricted : forall u ops cuts s, valid_setup u -> after u ops cuts s ->
  exists s', remove_gen_vars s = Ok (s', tm_iter s, true) /\ s' = with_lp (tm_lp s') s /\
    (forall x, objective_value (tm_lp s') x = objective_value (tm_lp s) x) /\ lp_max (tm_lp s') = lp_max (tm_lp s) /\
    (forall x, lp_feasible (tm_lp s') x <->
       lp_feasible (tm_lp s) x /\ forall p, In p (tm_paths s) -> p_initial p = false -> (x (p_id p) == 0)%Q) /\
    (forall x, ip_feasible (tm_lp s') x <->
       ip_feasible (tm_lp s) x /\ forall p, In p (tm_paths s) -> p_initial p = false -> (x (p_id p) == 0)%Q).
Proof.
  intros u ops cuts s V A. destruct (after_inv u ops cuts s V A) as (kinds & H & _). pose proof (ti_lp _ _ _ _ _ _ _ H) as L.
  assert (Hid : forall p, In p (tm_paths s) -> p_id p < num_vars (tm_lp s)).
  { intros p Hp. apply (lo_all _ _ _ _ _ L). apply in_or_app. left. apply in_map. auto. }
  destruct (remove_loop (tm_paths s) (tm_lp s)) as (m' & E & A1 & A2 & A3 & A4 & A5 & A6); [apply Forall_forall; exact Hid|].
  assert (Hobj : forall x, objective_value m' x = objective_value (tm_lp s) x).
  { intros x. unfold objective_value. rewrite A1, A2, A5. reflexivity. }
  assert (Hact : forall k x, activity m' k x = activity (tm_lp s) k x).
  { intros k x. unfold activity. rewrite A5. reflexivity. }
  assert (Hv : forall j v, nth_error (lp_vars (tm_lp s)) j = Some v -> v = mkVar (Some 0%Q) None true).
  { intros j v Hj. pose proof (lo_vars _ _ _ _ _ L) as F. rewrite Forall_forall in F. symmetry. apply F. eapply nth_error_In; eauto. }
  assert (HL : forall x, lp_feasible m' x <-> lp_feasible (tm_lp s) x /\ forall p, In p (tm_paths s) -> p_initial p = false -> (x (p_id p) == 0)%Q).
  { intros x. unfold lp_feasible. rewrite A4. split.
    - intros [F1 F2]. split; [split|].
      + intros j v Hj. specialize (F1 j). rewrite A6, Hj in F1. specialize (F1 _ eq_refl). rewrite (Hv j v Hj) in *.
        destruct F1 as [G1 G2]. split; cbn in *.
        * intros b Eb. apply G1. destruct (closes (tm_paths s) j); exact Eb.
        * intros b Eb. discriminate.
      + intros c k Hk. rewrite <- Hact. eauto.
      + intros p Hp Hi. assert (Hj : exists v, nth_error (lp_vars (tm_lp s)) (p_id p) = Some v).
        { destruct (nth_error (lp_vars (tm_lp s)) (p_id p)) eqn:En; eauto. apply nth_error_None in En. specialize (Hid p Hp). unfold num_vars in Hid. lia. }
        destruct Hj as (v & Hj). specialize (F1 (p_id p)). rewrite A6, Hj in F1. specialize (F1 _ eq_refl). rewrite (Hv _ v Hj) in *.
        assert (Ec : closes (tm_paths s) (p_id p) = true) by (apply closes_iff; eauto). rewrite Ec in F1. destruct F1 as [G1 G2]. cbn in *.
        specialize (G1 _ eq_refl). specialize (G2 _ eq_refl). lra.
    - intros [[F1 F2] F3]. split.
      + intros j v Hj. rewrite A6 in Hj. destruct (nth_error (lp_vars (tm_lp s)) j) as [v0|] eqn:Ej; [|discriminate]. cbn in Hj. injection Hj as <-.
        specialize (F1 j v0 Ej). rewrite (Hv j v0 Ej) in *. destruct F1 as [G1 G2]. destruct (closes (tm_paths s) j) eqn:Ec; [|split; auto].
        apply closes_iff in Ec. destruct Ec as (p & Hp & Hi & <-). specialize (F3 p Hp Hi). split; cbn; intros b Eb; injection Eb as <-; lra.
      + intros c k Hk. rewrite Hact. eauto. }
  exists (with_lp m' s). split; [|split; [|split; [exact Hobj|split; [exact A3|split; [exact HL|]]]]].
  - unfold remove_gen_vars. rewrite E. reflexivity.
  - reflexivity.
  - intros x. unfold ip_feasible. change (tm_lp (with_lp m' s)) with m'. rewrite HL. split.
    + intros [[F1 F2] F3]. split; auto. split; auto. intros j v Hj Hi. apply (F3 j (closed (closes (tm_paths s) j) v)).
      * rewrite A6, Hj. reflexivity.
      * unfold closed. destruct (closes _ _); exact Hi.
    + intros [[F1 F2] F3]. split; auto. intros j v Hj Hi. rewrite A6 in Hj. destruct (nth_error (lp_vars (tm_lp s)) j) as [v0|] eqn:Ej; [|discriminate].
      cbn in Hj. injection Hj as <-. apply (F2 j v0 Ej). unfold closed in Hi. destruct (closes _ _); exact Hi.
Qed.
Print Assumptions C74_restricted.

(** If the paths marked as initial contain a decision tree, the integer program keeps it: a solution with the value of this tree. *)
Theorem C74_keeps_tree : forall u ops cuts s tree sel, valid_setup u -> after u ops cuts s -> incl sel (su_paths u) ->
  Forall (fun p => p_initial p = true) sel -> Forall (tree_path (su_depth u) (su_splits u)) sel -> forms_tree u tree sel ->
  exists s' x, remove_gen_vars s = Ok (s', tm_iter s, true) /\ ip_feasible (tm_lp s') x /\ (objective_value (tm_lp s') x == qsum p_cost sel)%Q.
Proof.
  intros u ops cuts s tree sel V A Hi Hn Ht Hf. destruct (C74_restricted u ops cuts s V A) as (s' & E & _ & Ho & _ & _ & HI).
  destruct (tree_in_master u ops cuts s tree sel V A Hi Ht Hf) as (x & Hx & Hc & H0). exists s', x. split; auto. rewrite Ho. split; auto.
  apply HI. split; auto. intros q Hq Hqi. destruct (H0 q Hq) as [H|(p & Hp & Eq)]; auto. rewrite Forall_forall in Hn. specialize (Hn p Hp).
  rewrite Eq in Hqi. cbn in Hqi. congruence.
Qed.
Print Assumptions C74_keeps_tree.

(** The paths selected by the integer program after the call are initial ones, and they form a decision tree. *)
Theorem C74_selects : forall u ops cuts s s' x, valid_setup u -> after u ops cuts s -> proper_paths u (tm_paths s) ->
  remove_gen_vars s = Ok (s', tm_iter s, true) -> ip_feasible (tm_lp s') x ->
  exists s1 sel tree, solve_ip (Some x) s' = Ok (true, s1) /\ tm_selected s1 = Some sel /\
    incl sel (tm_paths s) /\ Forall (fun p => p_initial p = true) sel /\ forms_tree u tree sel.
Proof.
  intros u ops cuts s s' x V A P E Hx. destruct (C74_restricted u ops cuts s V A) as (s2 & E2 & Es & _ & _ & _ & HI).
  rewrite E in E2. injection E2 as <-. apply HI in Hx. destruct Hx as [Hx H0].
  destruct (C37_trees u ops cuts s x V A P Hx) as (s1 & sel & tree & E1 & Es1 & Hsel & Hf & _).
  unfold solve_ip in *. rewrite Es. cbn [with_lp with_cons tm_generated tm_paths] in *.
  destruct (assert (tm_generated s)) as [[]|e]; cbn [bind] in *; [|discriminate]. injection E1 as <-. cbn in Es1. injection Es1 as Es1.
  rewrite Es1. exists (with_selected sel (with_lp (tm_lp s') s)), sel, tree. split; [reflexivity|]. split; [reflexivity|]. split; [|split; auto].
  - intros p Hp. apply Hsel. auto.
  - apply Forall_forall. intros p Hp. apply Hsel in Hp. destruct Hp as [Hp Hpos]. destruct (p_initial p) eqn:Ei; auto.
    specialize (H0 p Hp Ei). lra.
Qed.
Print Assumptions C74_selects.

(** Four initial paths and four generated ones: the fractional solution is lost, the initial tree is kept. *)
Example C74_case : exists s s', after (ex_setup false) ex_cols [] s /\ remove_gen_vars s = Ok (s', 0, true) /\
  lp_feasible (tm_lp s) ex_half /\ ~ lp_feasible (tm_lp s') ex_half /\ ip_feasible (tm_lp s') ex_sol /\
  proper_paths (ex_setup false) (tm_paths s) /\ map p_initial (tm_paths s) = [true; true; true; true; false; false; false; false].
Proof.
  assert (Vs : match run_setup (ex_setup false) ex_cols with
              | Ok (cuts, s) => match remove_gen_vars s with
                 | Ok (s', i, b) => Some (cuts, i, b, feasibleb (tm_lp s) ex_half, option_map v_ub (nth_error (lp_vars (tm_lp s')) 12), ip_feasibleb (tm_lp s') ex_sol,
                     forallb (proper_pathb 2 3 ex_nodes) (tm_paths s), map p_initial (tm_paths s))
                 | Err _ => None end
              | Err _ => None end = Some ([], 0, true, true, Some (Some 0%Q), true, true, [true; true; true; true; false; false; false; false]))
    by (vm_compute; reflexivity).
  destruct (run_setup (ex_setup false) ex_cols) as [[cuts s]|] eqn:E; [|discriminate Vs].
  destruct (remove_gen_vars s) as [[[s' i] b]|] eqn:Er; [|discriminate Vs]. injection Vs as -> -> -> H1 H2 H3 H4 H5.
  exists s, s'. split; [|split; [exact Er|split; [apply feasibleb_ok; exact H1|split; [|split; [apply ip_feasibleb_ok; exact H3|split; [apply proper_pathb_ok; exact H4|exact H5]]]]]].
  - apply run_setup_after; [|exact E]. destruct C39_case as (s1 & dr & rows & (Hl & _) & _). exact Hl.
  - intros [F _]. change (option_map v_ub (nth_error (lp_vars (tm_lp s')) 12) = Some (Some 0%Q)) in H2. destruct (nth_error (lp_vars (tm_lp s')) 12) as [v|] eqn:Ev; [|discriminate H2]. injection H2 as H2. destruct (F 12 v Ev) as [_ G].
    specialize (G _ H2). unfold ex_half in G. lra.
Qed.

(** C75: merge_all_nodes_last_split keeps the nodes of the first dictionary with their numbers, candidates and counts; the last split
    of a node that also occurs in the second dictionary is the one it has there; other nodes of the second dictionary are ignored. *)
Theorem C75_merged : forall d1 d2 : ndict, NoDup (map fst d2) ->
  map fst (merge_all_nodes_last_split d1 d2) = map fst d1 /\
  forall h nd, assoc Nat.eqb d1 h = Some nd -> exists nd', assoc Nat.eqb (merge_all_nodes_last_split d1 d2) h = Some nd' /\
    en_id nd' = en_id nd /\ en_cands nd' = en_cands nd /\ en_counts nd' = en_counts nd /\
    (forall nd2, In (h, nd2) d2 -> en_last nd' = en_last nd2) /\ (~ In h (map fst d2) -> nd' = nd).
Proof.
  intros d1 d2. revert d1. induction d2 as [|[h2 nd2] d2 IH]; intros d1 N.
  - split; [reflexivity|]. intros h nd E. exists nd. repeat split; auto. intros nd2 [].
  - cbn [map fst] in N. inversion N as [|? ? Hni N']; subst. unfold merge_all_nodes_last_split. cbn [fold_left fst snd].
    destruct (assoc Nat.eqb d1 h2) as [nd1|] eqn:E1.
    + set (d1' := assoc_set Nat.eqb d1 h2 _). destruct (IH d1' N') as [K M]. split.
      * change (map fst (merge_all_nodes_last_split d1' d2) = map fst d1). rewrite K. unfold d1'. apply assoc_set_nth; [apply Nat.eqb_eq|].
        apply assoc_dom. eauto.
      * intros h nd E. change (exists nd', assoc Nat.eqb (merge_all_nodes_last_split d1' d2) h = Some nd' /\
          en_id nd' = en_id nd /\ en_cands nd' = en_cands nd /\ en_counts nd' = en_counts nd /\
          (forall nd3, In (h, nd3) ((h2, nd2) :: d2) -> en_last nd' = en_last nd3) /\ (~ In h (h2 :: map fst d2) -> nd' = nd)).
        assert (Ea : assoc Nat.eqb d1' h = if h2 =? h then Some (mkEn (en_id nd1) (en_cands nd1) (en_counts nd1) (en_last nd2)) else assoc Nat.eqb d1 h)
          by apply (assoc_assoc_set Nat.eqb Nat.eqb_eq).
        destruct (Nat.eqb_spec h2 h) as [<-|Hne].
        { rewrite E in E1. injection E1 as <-. destruct (M h2 _ Ea) as (nd' & A & _ & _ & _ & _ & B). specialize (B Hni). subst nd'.
          eexists. split; [exact A|]. cbn. repeat split; auto.
          - intros nd3 [E3|H3]; [congruence|]. exfalso. apply Hni. apply (in_map fst) in H3. exact H3.
          - intros H. exfalso. apply H. auto. }
        { rewrite E in Ea. destruct (M h nd Ea) as (nd' & A & B1 & B2 & B3 & B4 & B5). exists nd'. repeat split; auto.
          - intros nd3 [E3|H3]; [congruence|auto].
          - intros H. apply B5. intros H'. apply H. right. auto. }
    + destruct (IH d1 N') as [K M]. split; [exact K|]. intros h nd E. destruct (M h nd E) as (nd' & A & B1 & B2 & B3 & B4 & B5).
      exists nd'. repeat split; auto.
      * intros nd3 [E3|H3]; [congruence|auto].
      * intros H. apply B5. intros H'. apply H. right. auto.
Qed.
Print Assumptions C75_merged.
Example C75_case : let d1 := [(0, mkEn 0 [0; 1] [2; 3] (Some 0)); (1, mkEn 1 [1; 2] [1; 1] None)] in
  let d2 := [(0, mkEn 0 [4] [1] (Some 4)); (2, mkEn 2 [5] [1] (Some 5))] in
  NoDup (map fst d2) /\ merge_all_nodes_last_split d1 d2 = [(0, mkEn 0 [0; 1] [2; 3] (Some 4)); (1, mkEn 1 [1; 2] [1; 1] None)].
Proof. split; [|reflexivity]. repeat constructor; cbn; intuition lia. Qed.

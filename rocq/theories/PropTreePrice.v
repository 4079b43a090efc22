(** Claims about the pricing heuristic (DTreeSubProblemHeuristic). *)
From Verif Require Import Base Lp LpProofs LpCheck TreeModel SpecTree SpecTreeRun SpecTreeLp SpecTreePrice TreePricingModel TreePathProofs
  TreeLpBuild TreeInvProofs TreeOpProofs TreeFormProofs TreeRunProofs TreeMasterProofs TreeSolProofs TreeCheck TreePriceProofs TreeHeurProofs PropTree PropTreeMaster PropTreeLp.
Open Scope nat_scope.

Lemma solved_inv u ops cuts sv dl s x pi : valid_setup u -> solved u ops cuts sv dl s x pi ->
  exists kinds, uinv u kinds cuts s /\ reports (2 ^ su_depth u) (length (su_X u)) kinds cuts (tm_cut_cons s) pi dl.
Proof.
  intros V (s0 & old & A & Hsv & E & -> & Ea). destruct (after_inv u ops old s0 V A) as (kinds & H & _). pose proof V as (wf & _).
  destruct (solve_rmp_ok _ _ _ _ wf sv kinds old s0 Hsv H) as (k' & new & s' & dl' & j & E' & H' & _ & _ & En & _ & _ & _ & _ & _ & Ha).
  rewrite E in E'. injection E' as <- <-. rewrite Ea in Ha. destruct Ha as (_ & _ & Hr & _). rewrite En. exists k'. auto.
Qed.

(** * C43: what the heuristic returns *)

(** For every stream of random numbers, iteration order of sets and history of the master problem. *)
Theorem C43_heuristic : forall u ops cuts sv dl s x pi rand order h, valid_setup u -> valid_data u -> solved u ops cuts sv dl s x pi ->
  (forall l, Permutation (order l) l) ->
  exists ps h', heur_generate rand order (length (su_X u)) (su_y u) (su_rows u) (su_leaves u) (tm_nodes s) (tm_splits s) dl h = Ok (ps, h') /\
    length ps <= 100 /\ Forall (offered u cuts dl) ps /\ NoDup (map (fun p => (p_leaf p, p_splits p)) ps) /\
    h_success h' = h_success h + length ps /\ h_success h' + h_failed h' = h_success h + h_failed h + 100.
Proof.
  intros u ops cuts sv dl s x pi rand order h V D S Ho. destruct (solved_inv _ _ _ _ _ _ _ _ V S) as (kinds & H & R).
  destruct (generate_ok u kinds cuts s _ pi dl V D H R rand order Ho h) as (ps & h' & E & H1 & H2 & H3 & _ & H4 & H5).
  exists ps, h'. split; auto. split; auto. split; auto. split; auto. split; auto. lia.
Qed.
Print Assumptions C43_heuristic.

(** * C44: its reduced cost is the one in the master problem *)

(** [flags] tells which rows follow the path.  The column added for the path has the computed reduced cost. *)
Theorem C44_reduced_cost : forall u ops cuts sv dl s x pi p flags, valid_setup u -> valid_data u -> solved u ops cuts sv dl s x pi ->
  tree_path (su_depth u) (su_splits u) p -> uses_candidates (su_nodes u) p -> length flags = length (su_X u) ->
  (forall r, nth_error flags r = Some true <-> covers (su_X u) (su_leaves u) (su_splits u) (KRow r) p) ->
  exists v s', get_reduced_cost (length (su_X u)) (su_leaves u) (tm_splits s) dl p flags = Ok v /\
    add_column p s = Ok (true, s') /\ num_vars (tm_lp s') = S (num_vars (tm_lp s)) /\
    (v == reduced_cost (tm_lp s') pi (num_vars (tm_lp s)))%Q /\ reported_price u cuts dl p v.
Proof.
  intros u ops cuts sv dl s x pi p flags V D S Hp Hc Hf Hfl. destruct (solved_inv _ _ _ _ _ _ _ _ V S) as (kinds & H & R). pose proof V as (wf & _).
  destruct (reduced_ok u kinds cuts s _ pi dl V H R p flags Hp Hc Hf Hfl) as (v & Ev & Hv).
  destruct (add_column_ok _ _ _ _ wf kinds cuts s p H (tree_plain u p Hp)) as (s' & E' & H' & Hpaths & _).
  exists v, s'. split; auto. split; auto.
  pose proof (after_formulated u cuts s kinds V H) as F. pose proof (after_formulated u cuts s' kinds V H') as F'.
  pose proof (reported_is_price u _ cuts kinds _ s _ pi dl F R p v Hp Hc Hv) as Hprice.
  set (q := with_id p (num_vars (tm_lp s))) in *.
  assert (Hq : In q (tm_paths s')) by (rewrite Hpaths; apply in_or_app; simpl; auto).
  split; [|split; auto].
  - pose proof (Permutation_length (form_perm _ _ _ _ _ _ _ _ _ _ F)) as L1. pose proof (Permutation_length (form_perm _ _ _ _ _ _ _ _ _ _ F')) as L2.
    rewrite seq_length, app_length, !map_length in L1, L2. rewrite Hpaths, app_length in L2. simpl in L2. lia.
  - change (num_vars (tm_lp s)) with (p_id q). rewrite (reduced_path u (tm_paths s') _ cuts kinds _ (tm_lp s') F' pi q Hq).
    destruct (price_total u kinds pi q) as (v' & Hv' & Ev'). rewrite <- Ev'.
    apply (path_price_unique u kinds pi p); auto.
Qed.
Print Assumptions C44_reduced_cost.

(** * C45: the target of a heuristic path *)

(** Whatever order the satisfied rows are visited in: the flags tell which rows follow the path, the target is a class with the
    largest weight among them and the cost is that weight. *)
Theorem C45_target : forall u ops cuts s p order, valid_setup u -> valid_data u -> after u ops cuts s ->
  plain_path (su_depth u) (su_splits u) p -> (forall l, Permutation (order l) l) ->
  exists rs flags target count, get_satisfied_rows p (create_leaf (p_leaf p) (su_depth u)) (tm_splits s) = Ok rs /\
    choose_target (length (su_X u)) (su_y u) (su_rows u) (order rs) = Ok (flags, (target, count)) /\
    length flags = length (su_X u) /\
    (forall r, nth_error flags r = Some true <-> covers (su_X u) (su_leaves u) (su_splits u) (KRow r) p) /\
    best_class u (mkPath (p_leaf p) (p_nodes p) (p_splits p) (inject_Z (Z.of_nat count)) (p_id p) target (p_initial p)).
Proof.
  intros u ops cuts s p order V D A Hp Ho. destruct (after_inv u ops cuts s V A) as (kinds & H & _). pose proof V as (wf & _ & Hu).
  destruct (rows_sat u kinds cuts s V D H p Hp) as (rs & E & N & I).
  assert (Nord : NoDup (order rs)) by (eapply Permutation_NoDup; [apply Permutation_sym, Ho|auto]).
  assert (Iord : forall r, In r (order rs) <-> In r rs).
  { intros r. split; apply Permutation_in; [apply Ho|apply Permutation_sym, Ho]. }
  destruct (choose_target_ok (length (su_X u)) (su_y u) (su_rows u) (proj1 D)) with (rs := order rs) as (flags & [target count] & Et & Lf & If & Bmax & Bbest).
  { destruct (su_rows u); [apply Hu|exact Logic.I]. }
  { apply Forall_forall. intros r Hin. apply Iord, I in Hin. destruct Hin as (x & lf' & Hx & _). apply nth_error_Some. congruence. }
  exists rs, flags, target, count. split; auto. split; auto. split; auto. split; [intros r; rewrite If, Iord; apply I|].
  cbn [fst snd] in *. set (q := mkPath _ _ _ _ _ _ _).
  assert (Cov : forall r, In r (order rs) <-> covers (su_X u) (su_leaves u) (su_splits u) (KRow r) q).
  { intros r. rewrite Iord, I. apply covers_same; reflexivity. }
  split.
  - intros t w Hw. rewrite (class_weight_unique _ _ _ _ _ Hw (class_weight_of u q t (order rs) V D Nord Cov)).
    cbn [p_cost q]. rewrite <- Zle_Qle. apply inj_le. apply Bmax.
  - destruct Bbest as [(t & Et' & E' & Hpos)|E'].
    + left. exists t, count. split; auto. split; [rewrite E'; apply (class_weight_of u q t (order rs)); auto|]. split; [reflexivity|auto].
    + right. injection E' as -> ->. split; reflexivity.
Qed.
Print Assumptions C45_target.

(** The cost does not depend on the order; the target may differ only between classes of the same, largest, weight. *)
Theorem C45_order : forall u p q, p_leaf p = p_leaf q -> p_nodes p = p_nodes q -> p_splits p = p_splits q ->
  best_class u p -> best_class u q ->
  (p_cost p == p_cost q)%Q /\
  (p_target p <> p_target q -> exists t t' v, p_target p = Z.of_nat t /\ p_target q = Z.of_nat t' /\ class_weight u p t v /\ class_weight u p t' v).
Proof.
  intros u p q E1 E2 E3 [P1 P2] [Q1 Q2].
  assert (Same : forall t v, class_weight u p t v <-> class_weight u q t v).
  { intros t v. unfold class_weight. split; intros (rs & N & Ev & I); exists rs; (split; [auto|split; [auto|]]); intros r; rewrite I;
      rewrite (covers_same u (KRow r) p q E1 E2 E3); reflexivity. }
  assert (Q0 : forall v, 0 < v -> (0 < inject_Z (Z.of_nat v))%Q) by (intros v Hv; change 0%Q with (inject_Z 0); rewrite <- Zlt_Qlt; lia).
  destruct P2 as [(t & v & Ht & Hv & Ec & Hpos)|[Ht Ec]], Q2 as [(t' & v' & Ht' & Hv' & Ec' & Hpos')|[Ht' Ec']].
  - assert (Ecost : (p_cost p == p_cost q)%Q).
    { apply Qle_antisym; [rewrite Ec; apply Q1 with t; apply Same; auto|rewrite Ec'; apply P1 with t'; apply Same; auto]. }
    split; auto. intros _. exists t, t', v. split; auto. split; auto. split; auto. apply Same in Hv'.
    enough (v = v') by (subst; auto). rewrite Ec, Ec' in Ecost. apply (proj1 (inject_Z_injective _ _)) in Ecost. lia.
  - exfalso. apply Same in Hv. apply Q1 in Hv. specialize (Q0 v Hpos). lra.
  - exfalso. apply Same in Hv'. apply P1 in Hv'. specialize (Q0 v' Hpos'). lra.
  - split; [lra|]. congruence.
Qed.
Print Assumptions C45_order.

(** * C63: the subproblems number the cuts as the master problem does *)

(** If the heuristic has received all earlier cuts, then after update_subproblem with the duals of the next solve it has
    received all cuts; the cut sets of the shared split objects are already those of the master problem. *)
Theorem C63_cut_numbers : forall u ops cuts sv dl s0 s h, valid_setup u -> after u ops cuts s0 -> sound_solvers sv -> solve_rmp sv s0 = Ok (dl, s) ->
  h_cuts h = length cuts ->
  exists h', heur_update dl h (tm_splits s) = Ok (h', tm_splits s) /\ h_cuts h' = length (cuts ++ d_new_cuts dl) /\
    h_success h' = h_success h /\ h_failed h' = h_failed h /\
    forall k sp, nth_error (tm_splits s) k = Some sp ->
      (forall c, In c (s_lcuts sp) <-> exists z, nth_error (cuts ++ d_new_cuts dl) c = Some z /\ nth k z false = true) /\
      (forall c, In c (s_rcuts sp) <-> exists z, nth_error (cuts ++ d_new_cuts dl) c = Some z /\ nth k z false = false).
Proof.
  intros u ops cuts sv dl s0 s h V A Hsv E Hh. destruct (after_inv u ops cuts s0 V A) as (kinds & H & _). pose proof V as (wf & _).
  destruct (solve_rmp_ok _ _ _ _ wf sv kinds cuts s0 Hsv H) as (k' & new & s' & dl' & j & E' & H' & _ & _ & En & _).
  rewrite E in E'. injection E' as <- <-. subst new. eexists. split; [eapply heur_update_ok; eauto|]. cbn [h_cuts h_success h_failed].
  split; auto. split; auto. split; auto. intros k sp Hk. destruct (ti_sides _ _ _ _ _ _ _ H' k sp Hk) as (HL & HR & _). auto.
Qed.
Print Assumptions C63_cut_numbers.

(** * A concrete case *)

(** All duals 0 except 1 for the first leaf; random numbers 0, 1, 2, ...; rows visited in reverse order. *)
Definition ex_pi0 (i : nat) : Q := if i =? 0 then 1%Q else 0%Q.
Definition ex_sv0 : tsolvers := mkTsv (fun _ _ => Some (fun _ => 0%Q, ex_pi0)) (fun _ => ex_sols) (fun _ _ => None).
Definition data_okb (u : setup) : bool :=
  (length (su_y u) =? length (su_X u)) && forallb (fun s => nodupb (s_lrows s) && nodupb (s_rrows s)) (su_splits u).
Lemma data_okb_ok u : data_okb u = true -> valid_data u.
Proof.
  unfold data_okb. rewrite andb_true_iff, Nat.eqb_eq, forallb_forall. intros [H1 H2]. split; auto. apply Forall_forall. intros s Hs.
  specialize (H2 s Hs). rewrite andb_true_iff in H2. destruct H2 as [H2 H3]. split; apply nodupb_ok; auto.
Qed.
Definition ex_rand (k : nat) : nat := k * 3 / 4.
Example C43_case : exists s dl ps h, solved (ex_setup false) [] [] ex_sv0 dl s (fun _ => 0%Q) ex_pi0 /\
  valid_data (ex_setup false) /\
  heur_generate ex_rand (@rev nat) 4 (su_y (ex_setup false)) None (su_leaves (ex_setup false)) (tm_nodes s) (tm_splits s) dl heur_init = Ok (ps, h) /\
  map (fun p => (p_leaf p, p_splits p, p_cost p, p_target p)) ps =
    [(2, [2; 1], 1%Q, 0%Z); (2, [2; 0], 1%Q, 0%Z); (3, [1; 0], 1%Q, 0%Z); (2, [1; 0], 1%Q, 1%Z); (1, [0; 1], 1%Q, 1%Z)] /\ h_success h = 5 /\ h_failed h = 95.
Proof.
  assert (V : match run_setup (ex_setup false) [] with
              | Ok (cuts, s0) => match solve_rmp ex_sv0 s0 with
                | Ok (dl, s) => match heur_generate ex_rand (@rev nat) 4 (su_y (ex_setup false)) None (su_leaves (ex_setup false)) (tm_nodes s) (tm_splits s) dl heur_init with
                  | Ok (ps, h) => Some (cuts, d_new_cuts dl, map (fun p => (p_leaf p, p_splits p, p_cost p, p_target p)) ps, h_success h, h_failed h, tm_answer s)
                  | Err _ => None end
                | Err _ => None end
              | Err _ => None end = Some ([], [], [(2, [2; 1], 1%Q, 0%Z); (2, [2; 0], 1%Q, 0%Z); (3, [1; 0], 1%Q, 0%Z); (2, [1; 0], 1%Q, 1%Z); (1, [0; 1], 1%Q, 1%Z)], 5, 95, Some (fun _ => 0%Q, ex_pi0))) by (vm_compute; reflexivity).
  destruct (run_setup (ex_setup false) []) as [[cuts s0]|] eqn:E; [|discriminate V].
  destruct (solve_rmp ex_sv0 s0) as [[dl s]|] eqn:Es; [|discriminate V].
  destruct (heur_generate _ _ _ _ _ _ _ _ _ _) as [[ps h]|] eqn:Eh; [|discriminate V]. injection V as -> Hn Hp Hs Hf Ha.
  assert (A : after (ex_setup false) [] [] s0) by (apply run_setup_after; [constructor|exact E]).
  exists s, dl, ps, h. split; [|split; [apply data_okb_ok; vm_compute; reflexivity|split; [exact Eh|split; [exact Hp|split; [exact Hs|exact Hf]]]]].
  exists s0, []. split; [exact A|]. split; [intros n; exact ex_sols_sound|]. split; [exact Es|]. split; [rewrite Hn; reflexivity|exact Ha].
Qed.

(** C44 and C45 apply to every returned path (the flags are those of choose_target): here is its third. *)
Example C44_case : let p := mkPath 3 [2; 0] [1; 0] 1 0 0%Z false in
  tree_path 2 ex_splits p /\ uses_candidates ex_nodes p /\
  (forall r, nth_error [false; false; false; true] r = Some true <-> covers ex_X (complete_leaves 2) ex_splits (KRow r) p).
Proof.
  split; [|split].
  - split; [simpl; lia|]. split; [vm_compute; reflexivity|]. split; [reflexivity|]. repeat constructor.
  - intros n k Hin. simpl in Hin. destruct Hin as [E|[E|[]]]; injection E as <- <-; eexists; split; try reflexivity; simpl; auto.
  - intros r. rewrite <- covb_iff. destruct r as [|[|[|[|r]]]]; vm_compute; split; auto; try discriminate; destruct r; discriminate.
Qed.
Example C45_case : exists s, after (ex_setup false) [] [] s /\
  (let* rs := get_satisfied_rows (mkPath 2 [2; 0] [2; 1] 0 0 0%Z false) (create_leaf 2 2) (tm_splits s) in
   choose_target 4 (su_y (ex_setup false)) (Some [new_row; new_row; new_row; mkRow [] [] [] [] [] false false 3]) (rev rs))
  = Ok ([false; true; false; true], (0%Z, 3)).
Proof.
  assert (V : match run_setup (ex_setup false) [] with Ok (cuts, s) => Some (cuts, let* rs := get_satisfied_rows (mkPath 2 [2; 0] [2; 1] 0 0 0%Z false) (create_leaf 2 2) (tm_splits s) in
   choose_target 4 (su_y (ex_setup false)) (Some [new_row; new_row; new_row; mkRow [] [] [] [] [] false false 3]) (rev rs)) | Err _ => None end
   = Some ([], Ok ([false; true; false; true], (0%Z, 3)))) by (vm_compute; reflexivity).
  destruct (run_setup (ex_setup false) []) as [[cuts s]|] eqn:E; [|discriminate V]. injection V as -> Hv. exists s. split; [|exact Hv].
  apply run_setup_after; [constructor|exact E].
Qed.
(** C63: the tenth solve reports two cuts; the heuristic numbers them 0 and 1. *)
Example C63_case : exists s0 s dl, after (ex_setup true) (repeat (Solve ex_sv) 9) [] s0 /\ solve_rmp ex_sv s0 = Ok (dl, s) /\
  match heur_update dl heur_init (tm_splits s) with Ok (h, sp) => h_cuts h = 2 /\ map s_lcuts sp = [[0; 1]; [0; 1]; [0; 1]] | Err _ => False end.
Proof.
  assert (V : match run_setup (ex_setup true) (repeat (Solve ex_sv) 9) with
              | Ok (cuts, s) => match solve_rmp ex_sv s with
                | Ok (dl, s1) => match heur_update dl heur_init (tm_splits s1) with Ok (h, sp) => Some (cuts, h_cuts h, map s_lcuts sp) | Err _ => None end
                | Err _ => None end
              | Err _ => None end = Some ([], 2, [[0; 1]; [0; 1]; [0; 1]])) by (vm_compute; reflexivity).
  destruct (run_setup (ex_setup true) (repeat (Solve ex_sv) 9)) as [[cuts s]|] eqn:E; [|discriminate V].
  destruct (solve_rmp ex_sv s) as [[dl s1]|] eqn:Es; [|discriminate V]. destruct (heur_update dl heur_init (tm_splits s1)) as [[h sp]|] eqn:Eh; [|discriminate V].
  injection V as -> H1 H2. exists s, s1, dl. split; [|split; [exact Es|rewrite Eh; auto]]. apply run_setup_after; [|exact E].
  apply Forall_forall. intros o Ho. apply repeat_spec in Ho. subst o. intros n. exact ex_sols_sound.
Qed.

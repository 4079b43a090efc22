(** C88: why it asks that the cut rounds were not used up. *)
From Verif Require Import Base Lp LpProofs LpCheck TreeModel SpecTree TreeGeoProofs TreePathProofs TreeLpBuild TreeInvProofs TreeFormProofs
  TreeGenProofs TreeBuildProofs TreeCutProofs SpecTreeRun TreeRunProofs TreeMasterProofs SpecTreeLp TreeLpProofs TreeCheck SpecCut PropTree PropTreeMaster PropTreeLp
  PropCut TreeSettleProofs PropSettle.
Open Scope nat_scope.
(** Six features with one threshold each; the root tests feature 0 or 1, node 1 feature 2 or 3, node 2 feature 4 or 5.  One cut round.  One training row goes left
    everywhere, the other right everywhere. *)
Definition q_splits : list split := map (fun k => mkSplit k k (1 # 2) false [0] [1] [] []) (seq 0 6).
Definition q_path (l root below : nat) : path :=
  let ns := p_nodes (set_leaf l 2 (mkPath 0 [] [] 0 0 0 true)) in
  mkPath l ns (map (fun n => if n =? 0 then root else below) ns) 0 0 (if l <? 2 then 0 else 1) true.
Definition q_paths : list path :=
  flat_map (fun l => flat_map (fun r => map (q_path l r) (if l <? 2 then [2; 3] else [4; 5])) [0; 1]) (seq 0 4).
Definition q_setup : setup :=
  mkSetup 2 [[0; 0; 0; 0; 0; 0]; [1; 1; 1; 1; 1; 1]]%Q [0; 1] [mkNode 0 [0; 1] None 0 0 false; mkNode 1 [2; 3] None 0 0 false; mkNode 2 [4; 5] None 0 0 false] q_splits q_paths true true 1 None.
(** Two fractional LP solutions, both with weight 1/2 for each split of each node.  In the first, the paths to leaves 0 and 1 combine the splits of the root and of
    node 1 differently; in the second, those to leaves 2 and 3 the splits of the root and of node 2. *)
Definition q_value (left : bool) (j : nat) : Q :=
  let even := repeat (1 # 4) 8 in let odd := [1 # 2; 0; 0; 1 # 2; 0; 1 # 2; 1 # 2; 0]%Q in
  nth j ((if left then odd ++ even else even ++ rev odd) ++ repeat (1 # 2) 6) 0%Q.
Definition q_sv : tsolvers := mkTsv (fun i _ => Some (q_value (i =? 9), fun _ => 0%Q)) (fun _ => best_cut) (fun _ _ => None).
Lemma q_sound : sound_solvers q_sv.
Proof. intros k. exact best_cut_sound. Qed.
Definition q_ops : list mop := repeat (Solve q_sv) 9.
Definition q_row (k : nat) : bool := (k =? 0) || (k =? 2) || (k =? 4).

Definition q_follow (s : tmaster) : Q := qsum (fun p => q_value false (p_id p)) (filter (fun p => followsb (create_leaf (p_leaf p) 2) q_row p) (tm_paths s)).

(** As many constraints as rounds were added, everything else is as in C88_cuts, and the LP solution is feasible; still a possible row of data follows paths with a
    total LP value of 3/2. *)
Theorem C88_rounds_needed : exists u ops cuts s sv dl s' x pi z v, valid_setup u /\ after u ops cuts s /\ sound_solvers sv /\
  (forall n, optimal_for (tm_cutmodel s) (tv_cuts sv n)) /\ su_gen u = true /\
  S (solves ops) mod 10 = 0 /\ solve_rmp sv s = Ok (dl, s') /\ tm_answer s' = Some (x, pi) /\ lp_feasible (tm_lp s') x /\
  length (lp_cons (tm_lp s')) = length (lp_cons (tm_lp s)) + su_rounds u /\ 0 < su_rounds u /\
  possible (su_splits u) z /\ path_weight u z (tm_paths s') x v /\
  (1 + (inject_Z (Z.of_nat (length (tm_paths s'))) + 1) * teps < v)%Q.
Proof.
  assert (V : valid_setup q_setup) by (apply valid_setup_ok; [vm_compute|]; reflexivity).
  assert (Vs : match run_setup q_setup q_ops with
              | Ok (cuts, s) => match solve_rmp q_sv s with
                  | Ok (dl, s') => Some (cuts, closed_model (tm_cutmodel s), length (lp_cons (tm_lp s)), length (lp_cons (tm_lp s')), feasibleb (tm_lp s') (q_value false),
                                         Qltb (1 + (inject_Z (Z.of_nat (length (tm_paths s'))) + 1) * teps) (q_follow s'))
                  | Err _ => None end
              | Err _ => None end = Some ([], true, 20, 21, true, true)) by (vm_compute; reflexivity).
  assert (Va : match run_setup q_setup q_ops with
              | Ok (cuts, s) => match solve_rmp q_sv s with
                  | Ok (dl, s') => tm_answer s'
                  | Err _ => None end
              | Err _ => None end = Some (q_value false, fun _ => 0%Q)) by (vm_compute; reflexivity).
  destruct (run_setup q_setup q_ops) as [[cuts s]|] eqn:E; [|discriminate Vs]. destruct (solve_rmp q_sv s) as [[dl s']|] eqn:Es; [|discriminate Vs].
  injection Vs as -> C L1 L2 Fe Hv.
  assert (A : after q_setup q_ops [] s).
  { apply run_setup_after; [|exact E]. apply Forall_forall. intros o Ho. apply repeat_spec in Ho. subst o. apply q_sound. }
  assert (Ep : tm_paths s' = tm_paths s).
  { destruct (C51_solve_rmp q_setup q_ops [] s q_sv V A q_sound) as (dl1 & s1 & _ & _ & _ & _ & _ & _ & E1 & _ & _ & _ & Ep & _). congruence. }
  exists q_setup, q_ops, [], s, q_sv, dl, s', (q_value false), (fun _ => 0%Q), q_row, (q_follow s').
  split; [exact V|]. split; [exact A|]. split; [exact q_sound|]. split; [intros n; apply best_cut_optimal; exact C|]. split; [reflexivity|]. split; [reflexivity|].
  split; [exact Es|]. split; [exact Va|]. split; [apply feasibleb_ok; exact Fe|]. split; [rewrite L1, L2; reflexivity|]. split; [cbn; lia|].
  split.
  { intros i j a b Ha Hb Hf Ht. exfalso. cbn [su_splits q_setup] in Ha, Hb. apply nth_error_In, in_map_iff in Ha. apply nth_error_In, in_map_iff in Hb. destruct Ha as (? & <- & _). destruct Hb as (? & <- & _). cbn in Ht. lra. }
  split; [|apply Qltb_true; exact Hv]. unfold q_follow. rewrite Ep. apply (weight_of q_setup q_ops [] s q_row (q_value false) V A).
Qed.
Print Assumptions C88_rounds_needed.

(** Property C87: what the subproblems of the tree classifier record about their solves, and the settings they use first. *)
From Verif Require Import Base FitModel SpecFit TunerModel TunerObs SolveModel SolveObs SolveProofs TreeModel TreePricingModel TreeFitModel SpecTree SpecTreeResult SpecTreeTrain
  ExpMainModel PropMain PropReport SpecTuned TunedProofs.
Open Scope nat_scope.

(** After any number of trainings, every subproblem of the classifier has recorded exactly one wall time and one gap for each time it was asked for columns, in order, and each of its tuned
    parameters was asked for a value and credited once per solve, with minus the sum of time score and gap; the values used are those the parameters returned.  The subproblems of the
    old kind, which do not use CP-SAT, record nothing. *)
Theorem C87_statistics : forall sv A clk rs s i c lf, lives sv A clk s -> (forall k, fs_streams sv k = rs) -> nth_error (sub_specs A) i = Some (c, lf) ->
  exists sub pr, nth_error (tw_subs (f_world s)) i = Some (sub, pr) /\
    (is_sat c = false -> sub = sub_init) /\
    (is_sat c = true -> exists rc, length rc = count (prices i) (f_trace s) /\ recorded rs sub rc /\ Forall (genuine sv) rc).
Proof.
  intros sv A clk rs s i c lf L Hr Hc. destruct (lives_statistics sv A clk rs Hr s L) as (H1 & H2).
  destruct (nth_error (tw_subs (f_world s)) i) as [[sub pr]|] eqn:E; [|apply nth_error_None in E; pose proof (proj1 (nth_error_Some (sub_specs A) i) ltac:(congruence)); lia].
  exists sub, pr. split; [reflexivity|]. exact (H2 i c lf sub pr Hc E).
Qed.
Print Assumptions C87_statistics.

(** Whatever the solver answers: the first ten solves use a fixed sequence of numbers of LNS workers and probing levels, in which all four combinations occur, and the first fifteen
    numbers of presolve iterations are drawn from the random numbers of that parameter. *)
Theorem C87_first_settings : forall rs sub rc j r, recorded rs sub rc -> nth_error rc j = Some r ->
  (j < 10 -> set_lns (so_settings r) = nth j [2; 2; 2; 0; 0; 0; 0; 2; 2; 2]%Z 0%Z /\ set_probing (so_settings r) = nth j [1; 2; 2; 1; 1; 2; 2; 1; 1; 2]%Z 0%Z) /\
  (j < 15 -> set_presolve (so_settings r) = nth (rng_presolve rs j mod 3) [3; 4; 2]%Z 0%Z).
Proof.
  intros rs sub rc j r [_ _ R1 R2 R3] Hr. split; [intros Hj; split|intros Hj].
  - rewrite (first_choices _ _ _ _ _ 10 R1 eq_refl _ (two_choices (rng_lns rs) base_lns 2 0 eq_refl eq_refl) j r Hj Hr).
    do 10 (destruct j as [|j]; [reflexivity|]). lia.
  - rewrite (first_choices _ _ _ _ _ 10 R2 eq_refl _ (two_choices (rng_probing rs) base_probing 2 1 eq_refl eq_refl) j r Hj Hr).
    do 10 (destruct j as [|j]; [reflexivity|]). lia.
  - refine (first_choices _ _ _ _ _ 15 R3 eq_refl (fun j => nth (rng_presolve rs j mod 3) [3; 4; 2]%Z 0%Z) _ j r Hj Hr). intros rc' Hl.
    rewrite (three_choices (rng_presolve rs) 3 4 2 rc' (tuner_state (rng_presolve rs) (3 # 10) base_presolve)); try reflexivity. cbn. lia.
Qed.
Print Assumptions C87_first_settings.

(** A training of eleven iterations in which each of the two subproblems is asked twice. *)
Example C87_case : exists w s sub pr rc, dtree_init busy_args = Ok w /\ tree_fit busy_sv busy_args (wd_fit_clock fast) (wd_X fast) (wd_y fast) 19 (new_estimator w) = (s, Done tt) /\
  lives busy_sv busy_args (wd_fit_clock fast) s /\ nth_error (tw_subs (f_world s)) 1 = Some (sub, pr) /\ count (prices 1) (f_trace s) = 2 /\
  sub_times sub = [1; 1]%Q /\ sub_gaps sub = [0; 0]%Q /\ pm_counts (sub_lns sub) = [2; 0] /\ pm_counts (sub_probing sub) = [1; 1] /\
  recorded (fs_streams busy_sv 0) sub rc /\ map (fun r => set_probing (so_settings r)) rc = [1; 2]%Z.
Proof.
  assert (V : match dtree_init busy_args with
              | Ok w => match tree_fit busy_sv busy_args (wd_fit_clock fast) (wd_X fast) (wd_y fast) 19 (new_estimator w) with
                        | (s, Done tt) => match nth_error (tw_subs (f_world s)) 1 with
                                          | Some (sub, _) => Some (count (prices 1) (f_trace s), sub_times sub, sub_gaps sub, pm_counts (sub_lns sub), pm_counts (sub_probing sub)) | None => None end
                        | _ => None end
              | Err _ => None end = Some (2, [1; 1]%Q, [0; 0]%Q, [2; 0], [1; 1])) by (vm_compute; reflexivity).
  assert (Vs : match nth_error (sub_specs busy_args) 1 with Some (c, _) => is_sat c = true | None => False end) by (vm_compute; reflexivity).
  destruct (dtree_init busy_args) as [w|] eqn:Ew; [|discriminate V]. destruct (tree_fit _ _ _ _ _ _ _) as [s [[]| |]] eqn:Ef; [|discriminate V|discriminate V].
  assert (L : lives busy_sv busy_args (wd_fit_clock fast) s) by (eapply lives_fit; [apply lives_new; exact Ew|exact Ef]).
  destruct (nth_error (sub_specs busy_args) 1) as [[c lf]|] eqn:Ec; [|destruct Vs].
  destruct (C87_statistics busy_sv busy_args _ (fs_streams busy_sv 0) s 1 c lf L (fun _ => eq_refl) Ec) as (sub & pr & Es & _ & H). destruct (H Vs) as (rc & Hl & R & _).
  rewrite Es in V. injection V as V1 V2 V3 V4 V5. exists w, s, sub, pr, rc. split; [reflexivity|]. split; [exact Ef|]. split; [exact L|]. split; [exact Es|]. split; [exact V1|]. split; [exact V2|].
  split; [exact V3|]. split; [exact V4|]. split; [exact V5|]. split; [exact R|]. rewrite V1 in Hl. destruct rc as [|r1 [|r2 [|? ?]]]; try discriminate Hl.
  destruct (C87_first_settings _ _ _ 0 r1 R eq_refl) as [H1 _]. destruct (C87_first_settings _ _ _ 1 r2 R eq_refl) as [H2 _].
  destruct (H1 ltac:(lia)) as [_ H1']. destruct (H2 ltac:(lia)) as [_ H2']. cbn [map]. rewrite H1', H2'. reflexivity.
Qed.

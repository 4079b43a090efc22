(** Properties C19-C27, C29, C30 of the boolean rule classifier's prediction, master problem and pricing. *)
From Verif Require Import Base Lp LpProofs BdrModel SpecBdr BdrProofs BdrLpProofs BdrPricingProofs BdrSubmipProofs BdrRuleProofs BdrRunProofs BdrWitness.
From Coq Require Import Sorted.
Open Scope nat_scope.

(** Data for the examples: feature 0 separates the classes. *)
Definition ex_X : matrix := [[1; 0]; [1; 1]; [0; 1]]%Q.
Definition ex_y : list nat := [1; 1; 0].
Lemma ex_data : dataset 2 ex_X ex_y.
Proof. split; [discriminate|]. split; [reflexivity|]. split; repeat (constructor; auto). Qed.

(** * C19 *)
Theorem C19_predict_is_dnf : forall (L : Type) n (negative positive : L) rest rule X,
  Forall (fun r => length r = n) X -> Forall (clause_over n) rule ->
  exists labels, predict (negative :: positive :: rest) rule X = Ok labels /\ length labels = length X
  /\ forall i r l, nth_error X i = Some r -> nth_error labels i = Some l ->
       ((exists k, In k rule /\ forall j, In j k -> ~ (nth j r 0 == 0)%Q) -> l = positive)
       /\ (~ (exists k, In k rule /\ forall j, In j k -> ~ (nth j r 0 == 0)%Q) -> l = negative).
Proof.
  intros L n l0 l1 rest rule X HX HR. rewrite (predict_ok n l0 l1 rest rule X HX HR). eexists. split; [reflexivity|].
  rewrite map_length. split; auto. intros i r l Hi Hl. rewrite nth_error_map, Hi in Hl. cbn in Hl. injection Hl as <-.
  assert (Hr : length r = n). { rewrite Forall_forall in HX. apply HX. eapply nth_error_In; eauto. }
  assert (HE : rule_accepts r rule = true <-> (exists k, In k rule /\ forall j, In j k -> ~ (nth j r 0 == 0)%Q)).
  { rewrite rule_accepts_iff. split; intros (k & Hk & H); exists k; (split; [auto|]).
    - intros j Hj. rewrite accepts_In in H. specialize (H j Hj). unfold has in H. rewrite (nth_error_nth' r 0%Q) in H.
      + apply negb_true_iff in H. intros E. apply Qeq_bool_iff in E. congruence.
      + rewrite Forall_forall in HR. specialize (HR _ Hk). unfold clause_over in HR. rewrite Forall_forall in HR. rewrite Hr. auto.
    - apply accepts_In. intros j Hj. unfold has. rewrite (nth_error_nth' r 0%Q).
      + apply negb_true_iff. destruct (Qeq_bool _ _) eqn:E; auto. apply Qeq_bool_iff in E. destruct (H j Hj E).
      + rewrite Forall_forall in HR. specialize (HR _ Hk). unfold clause_over in HR. rewrite Forall_forall in HR. rewrite Hr. auto. }
  split; intros H.
  - apply HE in H. rewrite H. auto.
  - destruct (rule_accepts r rule) eqn:E; auto. destruct H. apply HE. auto.
Qed.
Print Assumptions C19_predict_is_dnf.

(** Each prediction depends only on its own sample. *)
Theorem C19_predict_pointwise : forall (L : Type) (classes : list L) rule X1 X2,
  predict classes rule (X1 ++ X2) =
  (let* a := predict classes rule X1 in let* b := predict classes rule X2 in Ok (a ++ b))
  \/ (exists e, predict classes rule (X1 ++ X2) = Err e
      /\ (predict classes rule X1 = Err e \/ exists e', predict classes rule X2 = Err e')).
Proof.
  intros L classes rule X1 X2. unfold predict.
  assert (A : forall (A B : Type) (f : A -> res B) l m, map_res f (l ++ m) = (let* a := map_res f l in let* b := map_res f m in Ok (a ++ b))).
  { intros A B f l m. induction l as [|x l IH]; cbn [app map_res].
    - cbn [bind]. destruct (map_res f m); reflexivity.
    - destruct (f x); cbn [bind]; auto. rewrite IH. destruct (map_res f l); cbn [bind]; auto. destruct (map_res f m); reflexivity. }
  rewrite A. destruct (map_res (fun row => any_clause row rule) X1) as [c1|e]; cbn [bind]; [|right; eauto].
  destruct (map_res (fun row => any_clause row rule) X2) as [c2|e]; cbn [bind]; [|right; eauto].
  left. apply A.
Qed.
Print Assumptions C19_predict_pointwise.
Example C19_case : predict [7; 9] [[0; 2]; [1]] [[1; 0; 1]; [1; 0; 0]; [0; 1; 0]; [0; 0; 0]]%Q
  = Ok [9; 7; 9; 7].
Proof. reflexivity. Qed.

(** * C20 *)
Theorem C20_monotone_in_the_sample : forall n (rule : list clause) r r',
  length r = n -> length r' = n -> Forall (clause_over n) rule ->
  (forall j, ~ (nth j r 0 == 0)%Q -> ~ (nth j r' 0 == 0)%Q) ->
  predict [0; 1] rule [r] = Ok [1] -> predict [0; 1] rule [r'] = Ok [1].
Proof.
  intros n rule r r' Hr Hr' HR HB H.
  rewrite (predict_ok n) in H by (auto; repeat constructor; auto). rewrite (predict_ok n) by (auto; repeat constructor; auto).
  cbn [map] in *. destruct (rule_accepts r rule) eqn:E; [|discriminate].
  apply rule_accepts_iff in E. destruct E as (k & Hk & HA).
  assert (E' : rule_accepts r' rule = true); [|rewrite E'; auto].
  apply rule_accepts_iff. exists k. split; auto. eapply accepts_below; [|exact HA].
  intros j Hj. unfold has in *. destruct (nth_error r j) as [q|] eqn:Eq; [|discriminate].
  assert (Hj' : j < length r). { apply nth_error_Some. congruence. }
  rewrite (nth_error_nth' r' 0%Q) by congruence. apply negb_true_iff. apply negb_true_iff in Hj. destruct (Qeq_bool (nth j r' 0%Q) 0) eqn:E0; auto. exfalso.
  apply Qeq_bool_iff in E0. apply (HB j); [|exact E0]. rewrite (nth_error_nth _ _ 0%Q Eq). intros Z. apply Qeq_bool_iff in Z. congruence.
Qed.
Print Assumptions C20_monotone_in_the_sample.

(** More clauses accept more; a clause with more features accepts less. *)
Theorem C20_monotone_in_the_rule : forall n (rule rule' : list clause) r,
  length r = n -> Forall (clause_over n) rule -> Forall (clause_over n) rule' ->
  (forall k, In k rule -> exists k', In k' rule' /\ incl k' k) ->
  predict [0; 1] rule [r] = Ok [1] -> predict [0; 1] rule' [r] = Ok [1].
Proof.
  intros n rule rule' r Hr HR HR' HK H.
  rewrite (predict_ok n) in H by (auto; repeat constructor; auto). rewrite (predict_ok n) by (auto; repeat constructor; auto).
  cbn [map] in *. destruct (rule_accepts r rule) eqn:E; [|discriminate].
  apply rule_accepts_iff in E. destruct E as (k & Hk & HA). destruct (HK k Hk) as (k' & Hk' & HI).
  assert (E' : rule_accepts r rule' = true); [|rewrite E'; auto].
  apply rule_accepts_iff. exists k'. split; auto. rewrite accepts_In in *. auto.
Qed.
Print Assumptions C20_monotone_in_the_rule.
Example C20_case : predict [0; 1] [[0]] [[1; 0]]%Q = Ok [1] /\ predict [0; 1] [[0]] [[1; 1]]%Q = Ok [1]
  /\ predict [0; 1] [[0]; [1]] [[0; 1]]%Q = Ok [1] /\ predict [0; 1] [[0; 1]] [[1; 0]]%Q = Ok [0].
Proof. repeat split. Qed.

(** * C21 *)
(** After generate_mp and any sequence of add_column calls, whatever they answered. *)
Theorem C21_master_is_problem_1 : forall n X y C p h, dataset n X y -> Forall (clause_over n) h ->
  exists s0, generate_mp X y (master_init C p) = Ok s0 /\
  let s := fold_left (fun s k => fst (add_column k s)) h s0 in
  same_lp (bm_lp s) (problem1 X y C p (master_clauses h)).
Proof.
  intros n X y C p h HD Hh. destruct (generate_mp_ok n X y HD C p) as (s0 & E & I & _). exists s0. split; auto.
  apply (mi_lp _ _ _ _ _ _ (fold_master_inv n X y HD C p h Hh [[]] s0 ltac:(left; auto) I)).
Qed.
Print Assumptions C21_master_is_problem_1.

(** That model is problem (1): its feasible points and objective values are those of the mathematical problem. *)
Theorem C21_problem_1_meaning : forall X y C p K x,
  (lp_feasible (problem1 X y C p K) x <->
   p1_feasible X y C (map x (seq 0 (length (positives X y)))) (combine K (map x (seq (length (positives X y)) (length K)))))
  /\ (objective_value (problem1 X y C p K) x ==
      p1_objective X y p (map x (seq 0 (length (positives X y)))) (combine K (map x (seq (length (positives X y)) (length K)))))%Q
  /\ lp_max (problem1 X y C p K) = false
  /\ Forall (fun v => v_int v = true) (lp_vars (problem1 X y C p K)).
Proof.
  intros X y C p K x. split; [apply p1_feasible_iff|]. split; [apply p1_objective_value|]. split; auto.
  apply Forall_forall. intros v Hv. apply repeat_spec in Hv. subst. auto.
Qed.
Print Assumptions C21_problem_1_meaning.
Example C21_case : let s := match generate_mp ex_X ex_y (master_init 4 2) with Ok s => s | Err _ => master_init 0 0 end in
  let s' := fst (add_column [0] (fst (add_column [] (fst (add_column [0; 1] s))))) in
  num_vars (bm_lp s') = 5 /\ num_cons (bm_lp s') = 3 /\ master_clauses [[0; 1]; []; [0]] = [[]; [0; 1]; [0]]
  /\ map (lp_obj (bm_lp s')) (seq 0 5) = [2; 2; 1; 0; 0]%Q
  /\ map (fun k => map (c_coef k) (seq 0 5)) (lp_cons (bm_lp s')) = [[0; 0; 1; 3; 2]; [1; 0; 1; 0; 1]; [0; 1; 1; 1; 1]]%Q.
Proof. vm_compute. repeat split. Qed.

(** * C22 *)
Theorem C22_add_column : forall n X y C p h k, dataset n X y -> Forall (clause_over n) h -> clause_over n k ->
  forall s0 s, generate_mp X y (master_init C p) = Ok s0 -> s = fold_left (fun s k => fst (add_column k s)) h s0 ->
  (k = [] -> add_column k s = (s, Ok false))
  /\ (k <> [] -> In k (master_clauses h) -> add_column k s = (s, Err AssertionError))
  /\ (k <> [] -> ~ In k (master_clauses h) ->
      exists s', add_column k s = (s', Ok true) /\ num_vars (bm_lp s') = S (num_vars (bm_lp s))
        /\ num_cons (bm_lp s') = num_cons (bm_lp s) /\ same_lp (bm_lp s') (problem1 X y C p (master_clauses h ++ [k]))).
Proof.
  intros n X y C p h k HD Hh Hk s0 s E ->. destruct (generate_mp_ok n X y HD C p) as (s1 & E1 & I & _).
  rewrite E in E1. injection E1 as <-.
  pose proof (fold_master_inv n X y HD C p h Hh [[]] s0 ltac:(left; auto) I) as I'. fold (master_clauses h) in I'.
  assert (HE : In [] (master_clauses h)).
  { unfold master_clauses. clear -h. assert (G : forall K, In [] K -> In [] (fold_left kept h K)).
    { induction h as [|k h IH]; intros K H; cbn; auto. apply IH. apply kept_empty; auto. } apply G. left; auto. }
  split; [|split].
  - intros ->. rewrite (add_column_rejected _ _ _ _ _ _ _ I'); auto.
  - intros Hne Hin. rewrite (add_column_rejected _ _ _ _ _ _ _ I') by auto. destruct k; [congruence|auto].
  - intros Hne Hn. destruct (add_column_ok n X y HD C p _ k _ I' Hk Hne Hn) as (s' & Ea & Ia & _ & N1 & N2).
    exists s'. split; auto. split; auto. split; auto. apply (mi_lp _ _ _ _ _ _ Ia).
Qed.
Print Assumptions C22_add_column.
(** Before generate_mp nothing is accepted. *)
Theorem C22_not_generated : forall C p k, add_column k (master_init C p) = (master_init C p, Err AssertionError).
Proof. reflexivity. Qed.
Print Assumptions C22_not_generated.
Example C22_case : let s := match generate_mp ex_X ex_y (master_init 4 2) with Ok s => s | Err _ => master_init 0 0 end in
  snd (add_column [] s) = Ok false /\ snd (add_column [1] s) = Ok true
  /\ snd (add_column [1] (fst (add_column [1] s))) = Err AssertionError.
Proof. vm_compute. repeat split. Qed.

(** * C23 *)
Theorem C23_lexicographic_positions : forall i,
  StronglySorted lt (generate_lexicographic_clause i)
  /\ forall j, In j (generate_lexicographic_clause i) <-> N.testbit i (N.of_nat j) = true.
Proof. intros i. split; [apply lexicographic_increasing|intros j; apply lexicographic_In]. Qed.
Print Assumptions C23_lexicographic_positions.
Theorem C23_lexicographic_bijection : forall k, StronglySorted lt k ->
  exists i, generate_lexicographic_clause i = k /\ forall i', generate_lexicographic_clause i' = k -> i' = i.
Proof.
  intros k Hk. exists (index_of k). pose proof (lexicographic_index k Hk) as E. split; auto.
  intros i' H. apply lexicographic_inj. congruence.
Qed.
Print Assumptions C23_lexicographic_bijection.
Example C23_case : map generate_lexicographic_clause [0; 1; 2; 3; 4; 5; 22]%N = [[]; [0]; [1]; [0; 1]; [2]; [0; 2]; [1; 2; 4]].
Proof. reflexivity. Qed.

(** * C24 *)
Theorem C24_heuristic_enumeration : forall n X y K lam mu, dataset n X y ->
  (0 <= lam)%Q -> Forall (fun m => 0 <= m)%Q mu -> length mu = length (positives X y) ->
  exists cols, heuristic_generate_columns K X y (lam, mu) = Ok cols
  /\ StronglySorted before cols /\ NoDup cols
  /\ forall k, In k cols <->
       increasing k /\ clause_over n k /\ 1 <= length k <= K /\ (clause_cost X y lam mu k < - (1 # 1000000))%Q.
Proof.
  intros n X y K lam mu HD Hl Hm Hn. rewrite (heuristic_ok n X y HD K lam mu Hl Hm Hn). eexists. split; [reflexivity|].
  assert (S1 : StronglySorted before (filter (fun k => Qltb (clause_cost X y lam mu k) (- eps)) (candidates n K)))
    by (apply sorted_filter, candidates_sorted).
  split; auto. split.
  - eapply sorted_NoDup; [|exact S1]. intros a [H|[_ H]]; [lia|eapply lex_irrefl; eauto].
  - intros k. rewrite filter_In, candidates_In, Qltb_true. unfold eps. intuition.
Qed.
Print Assumptions C24_heuristic_enumeration.
(** Negative duals are rejected. *)
Theorem C24_negative_duals : forall K X y lam mu, ~ ((0 <= lam)%Q /\ Forall (fun m => 0 <= m)%Q mu) ->
  heuristic_generate_columns K X y (lam, mu) = Err AssertionError.
Proof.
  intros K X y lam mu H. unfold heuristic_generate_columns. cbn [fst snd].
  destruct (check_duals lam mu) as [u|e] eqn:E; [destruct H; eapply check_duals_inv; eauto|].
  assert (e = AssertionError); [|subst; auto]. clear H. unfold check_duals, assert in E. destruct (Qle_bool 0 lam); [|cbn in E; congruence]. cbn [bind] in E.
  revert E. induction mu as [|m mu IH]; cbn [for_each]; [discriminate|]. destruct (Qle_bool 0 m); cbn [bind]; [auto|congruence].
Qed.
Print Assumptions C24_negative_duals.
Example C24_case : heuristic_generate_columns 2 ex_X ex_y (1 # 4, [1; 1])%Q = Ok [[0]; [0; 1]]
  /\ heuristic_generate_columns 1 ex_X ex_y (1 # 4, [1; 1])%Q = Ok [[0]].
Proof. vm_compute. auto. Qed.

(** * C25 *)
(** [pi]: any constraint duals with the sign a minimisation gives the complexity constraint. *)
Theorem C25_heuristic_reduced_cost : forall n X y C p h k pi, dataset n X y -> Forall (clause_over n) h -> clause_over n k ->
  k <> [] -> ~ In k (master_clauses h) -> (pi O <= 0)%Q ->
  forall s0 s s' d, generate_mp X y (master_init C p) = Ok s0 -> s = fold_left (fun s k => fst (add_column k s)) h s0 ->
  solve_rmp pi s = Ok d -> add_column k s = (s', Ok true) ->
  exists q, heuristic_reduced_cost X y (fst d) (snd d) k = Ok q
    /\ (q == reduced_cost (bm_lp s') pi (num_vars (bm_lp s)))%Q.
Proof.
  intros n X y C p h k pi HD Hh Hk Hne Hn Hpi s0 s s' d E -> Ed Ea.
  destruct (generate_mp_ok n X y HD C p) as (s1 & E1 & I & _). rewrite E in E1. injection E1 as <-.
  pose proof (fold_master_inv n X y HD C p h Hh [[]] s0 ltac:(left; auto) I) as I'. fold (master_clauses h) in I'.
  assert (Ed' : solve_rmp pi (fold_left (fun s k => fst (add_column k s)) h s0) = Ok (Qabs (pi O), mus X y pi)).
  { apply (solve_rmp_ok X y (BdrFitModel.mkBparams C p 0 0 None) (master_clauses h)). exact I'. }
  rewrite Ed in Ed'. injection Ed' as ->. cbn [fst snd].
  destruct (add_column_ok n X y HD C p _ k _ I' Hk Hne Hn) as (s'' & Ea' & Ia & _). rewrite Ea in Ea'. injection Ea' as <-.
  destruct (heuristic_cost_ok n X y HD (Qabs (pi O)) (mus X y pi) k Hk) as (q & Eq & Hq).
  { unfold mus. rewrite map_length, seq_length. auto. }
  exists q. split; auto. rewrite Hq, (same_reduced_cost _ _ _ _ (mi_lp _ _ _ _ _ _ Ia)), (same_num_vars _ _ (mi_lp _ _ _ _ _ _ I')), problem1_num_vars.
  rewrite (clause_reduced_cost X y C p _ pi (length (master_clauses h)) k).
  - apply clause_cost_lam. apply Qabs_neg. auto.
  - rewrite nth_error_app2, Nat.sub_diag by auto. auto.
Qed.
Print Assumptions C25_heuristic_reduced_cost.
Example C25_case : let s := match generate_mp ex_X ex_y (master_init 4 2) with Ok s => s | Err _ => master_init 0 0 end in
  let pi := fun c => match c with O => (-(1 # 4))%Q | _ => 1%Q end in
  solve_rmp pi s = Ok ((1 # 4)%Q, [1; 1]%Q)
  /\ (match heuristic_reduced_cost ex_X ex_y (1 # 4) [1; 1]%Q [0%nat] with Ok q => q == - (3 # 2) | Err _ => False end)%Q
  /\ (reduced_cost (bm_lp (fst (add_column [0%nat] s))) pi (num_vars (bm_lp s)) == - (3 # 2))%Q.
Proof. vm_compute. repeat split. Qed.

(** * C26 *)
(** The integer program built by the subproblem, at any time, is problem (2) for the given duals ... *)
Theorem C26_pricing_model : forall n X y D lam mu, dataset n X y -> length mu = length (positives X y) ->
  exists s, create_submip X y lam mu (submip_init D) = Ok s /\ same_lp (bs_lp s) (problem2 n X y D lam mu).
Proof.
  intros n X y D lam mu HD Hm. destruct (create_submip_ok n X y HD D lam mu Hm) as (s & E & _ & _ & _ & _ & H). eauto.
Qed.
Print Assumptions C26_pricing_model.

(** ... whose feasible points are clauses of at most D features, priced at least at their reduced cost, and every such
    clause is a feasible point priced exactly. *)
Theorem C26_feasible_points : forall n X y D lam mu, dataset n X y -> length mu = length (positives X y) ->
  Forall (fun m => 0 <= m)%Q mu ->
  (forall x, ip_feasible (problem2 n X y D lam mu) x ->
     increasing (selected n x) /\ clause_over n (selected n x) /\ (Z.of_nat (length (selected n x)) <= D)%Z
     /\ (clause_cost X y lam mu (selected n x) <= objective_value (problem2 n X y D lam mu) x)%Q)
  /\ (forall k, increasing k -> clause_over n k -> (Z.of_nat (length k) <= D)%Z ->
     exists x, ip_feasible (problem2 n X y D lam mu) x /\ selected n x = k
       /\ (objective_value (problem2 n X y D lam mu) x == clause_cost X y lam mu k)%Q).
Proof.
  intros n X y D lam mu HD Hn Hm. split.
  - intros x F. split; [apply selected_increasing|]. split; [apply selected_over|]. split; [exact (selected_length n X y HD D lam mu Hn x F)|].
    exact (feasible_lower n X y HD D lam mu Hn x Hm F).
  - intros k Hi Ho Hl. exists (clause_point n X k). split; [exact (clause_point_feasible n X y HD D lam mu Hn k Hi Ho Hl)|].
    split; [exact (selected_clause_point n X y mu Hn k Hi Ho)|]. exact (clause_point_objective n X y HD D lam mu Hn k Hi Ho).
Qed.
Print Assumptions C26_feasible_points.

(** [s]: the subproblem after any earlier successful pricing calls [calls] on the same data. *)
Inductive priced_before (X : matrix) (y : list nat) (D : Z) : submip -> Prop :=
| priced_new : priced_before X y D (submip_init D)
| priced_more : forall s solver d cols s', priced_before X y D s -> length (snd d) = length (positives X y) ->
    sub_generate_columns solver X y d s = Ok (cols, s') -> priced_before X y D s'.

Lemma priced_before_inv n X y D s : dataset n X y -> priced_before X y D s -> sub_inv n X y D s.
Proof.
  intros HD H. induction H as [|s solver [lam mu] cols s' Hs IH Hl E]; [left; auto|]. cbn [snd] in Hl.
  assert (HC : exists u, check_duals lam mu = Ok u).
  { unfold sub_generate_columns in E. cbn [fst snd] in E. destruct (check_duals lam mu) as [u|]; [eauto|discriminate]. }
  destruct HC as [u HC]. apply check_duals_inv in HC. destruct HC as [H1 H2].
  destruct (sub_generate_ok n X y HD D lam mu s solver IH H1 H2 Hl) as (s1 & SI & _ & _ & _ & E1). rewrite E in E1.
  destruct (solver (bs_lp s1)); [|discriminate]. destruct (Qle_bool _ _); injection E1 as _ ->; auto.
Qed.

(** With an optimal answer: no clause iff none improves by more than 1e-6; a returned clause is a best one. *)
Theorem C26_exact_pricing : forall n X y D lam mu s solver, dataset n X y -> priced_before X y D s ->
  (0 <= lam)%Q -> Forall (fun m => 0 <= m)%Q mu -> length mu = length (positives X y) ->
  (forall m, same_lp m (problem2 n X y D lam mu) -> exists x, solver m = Some x /\ ip_optimal m x) ->
  exists cols s', sub_generate_columns solver X y (lam, mu) s = Ok (cols, s')
  /\ (cols = [] <-> forall k, increasing k -> clause_over n k -> (Z.of_nat (length k) <= D)%Z ->
                      (- (1 # 1000000) <= clause_cost X y lam mu k)%Q)
  /\ (forall k, In k cols -> cols = [k] /\ increasing k /\ clause_over n k /\ (Z.of_nat (length k) <= D)%Z
        /\ (clause_cost X y lam mu k < - (1 # 1000000))%Q
        /\ forall k', increasing k' -> clause_over n k' -> (Z.of_nat (length k') <= D)%Z ->
             (clause_cost X y lam mu k <= clause_cost X y lam mu k')%Q).
Proof.
  intros n X y D lam mu s solver HD HP Hl Hm Hn HS. apply (priced_before_inv n) in HP; auto.
  destruct (sub_generate_ok n X y HD D lam mu s solver HP Hl Hm Hn) as (s1 & _ & _ & _ & SL & ->).
  destruct (HS _ SL) as (x & -> & Fx & Op). apply (same_ip_feasible _ _ _ SL) in Fx. pose proof (same_objective _ _ x SL) as EO.
  assert (BEST : forall k', increasing k' -> clause_over n k' -> (Z.of_nat (length k') <= D)%Z ->
             (objective_value (problem2 n X y D lam mu) x <= clause_cost X y lam mu k')%Q).
  { intros k' K1 K2 K3. pose proof (clause_point_feasible n X y HD D lam mu Hn k' K1 K2 K3) as F.
    specialize (Op _ (same_ip_feasible _ _ _ (same_lp_sym _ _ SL) F)). unfold as_good in Op.
    pose proof SL as (_ & _ & _ & SM & _). rewrite SM in Op. cbn [problem2 lp_max] in Op. rewrite EO, (same_objective _ _ _ SL) in Op.
    rewrite clause_point_objective in Op by auto. exact Op. }
  pose proof (feasible_lower n X y HD D lam mu Hn x Hm Fx) as LB.
  destruct (Qle_bool (- eps) (objective_value (bs_lp s1) x)) eqn:B.
  - apply Qle_bool_iff in B. rewrite EO in B. eexists _, _. split; [reflexivity|]. split; [|intros k []]. split; auto. intros _ k K1 K2 K3.
    eapply Qle_trans; [exact B|]. apply BEST; auto.
  - apply Qle_bool_false in B. rewrite EO in B. eexists _, _. split; [reflexivity|].
    assert (NEG : (clause_cost X y lam mu (selected n x) < - (1 # 1000000))%Q) by (eapply Qle_lt_trans; [exact LB|exact B]).
    pose proof (selected_length n X y HD D lam mu Hn x Fx) as SLen. pose proof (selected_increasing n x) as SI. pose proof (selected_over n x) as SO.
    split.
    + split; [discriminate|]. intros H. specialize (H _ SI SO SLen). lra.
    + intros k [<-|[]]. split; auto. split; auto. split; auto. split; auto. split; auto.
      intros k' K1 K2 K3. eapply Qle_trans; [exact LB|]. apply BEST; auto.
Qed.
Print Assumptions C26_exact_pricing.

(** A merely feasible answer still gives at most one clause, and it improves. *)
Theorem C26_feasible_pricing : forall n X y D lam mu s solver, dataset n X y -> priced_before X y D s ->
  (0 <= lam)%Q -> Forall (fun m => 0 <= m)%Q mu -> length mu = length (positives X y) ->
  (forall m, same_lp m (problem2 n X y D lam mu) -> exists x, solver m = Some x /\ ip_feasible m x) ->
  exists cols s', sub_generate_columns solver X y (lam, mu) s = Ok (cols, s') /\ length cols <= 1
  /\ forall k, In k cols -> increasing k /\ clause_over n k /\ (Z.of_nat (length k) <= D)%Z
        /\ (clause_cost X y lam mu k < - (1 # 1000000))%Q.
Proof.
  intros n X y D lam mu s solver HD HP Hl Hm Hn HS. apply (priced_before_inv n) in HP; auto.
  destruct (sub_generate_ok n X y HD D lam mu s solver HP Hl Hm Hn) as (s1 & _ & _ & _ & SL & ->).
  destruct (HS _ SL) as (x & -> & Fx). apply (same_ip_feasible _ _ _ SL) in Fx. pose proof (same_objective _ _ x SL) as EO.
  pose proof (feasible_lower n X y HD D lam mu Hn x Hm Fx) as LB.
  destruct (Qle_bool (- eps) (objective_value (bs_lp s1) x)) eqn:B.
  - eexists _, _. split; [reflexivity|]. split; [cbn; lia|intros k []].
  - apply Qle_bool_false in B. rewrite EO in B. eexists _, _. split; [reflexivity|]. split; [cbn; lia|]. intros k [<-|[]].
    split; [apply selected_increasing|]. split; [apply selected_over|]. split; [eapply selected_length; eauto|].
    eapply Qle_lt_trans; [exact LB|exact B].
Qed.
Print Assumptions C26_feasible_pricing.

(** Without a solution, or with negative duals, the call raises. *)
Theorem C26_no_solution : forall n X y D lam mu s solver, dataset n X y -> priced_before X y D s ->
  length mu = length (positives X y) -> (forall m, same_lp m (problem2 n X y D lam mu) -> solver m = None) ->
  sub_generate_columns solver X y (lam, mu) s = Err AssertionError.
Proof.
  intros n X y D lam mu s solver HD HP Hn HS. apply (priced_before_inv n) in HP; auto.
  destruct (check_duals lam mu) as [u|e] eqn:EC.
  - apply check_duals_inv in EC. destruct EC as [Hl Hm].
    destruct (sub_generate_ok n X y HD D lam mu s solver HP Hl Hm Hn) as (s1 & _ & _ & _ & SL & ->). rewrite (HS _ SL). auto.
  - unfold sub_generate_columns. cbn [fst snd]. rewrite EC. cbn [bind].
    assert (e = AssertionError); [|subst; auto]. clear -EC. unfold check_duals, assert in EC. destruct (Qle_bool 0 lam); [|cbn in EC; congruence]. cbn [bind] in EC.
    revert EC. induction mu as [|m mu IH]; cbn [for_each]; [discriminate|]. destruct (Qle_bool 0 m); cbn [bind]; [auto|congruence].
Qed.
Print Assumptions C26_no_solution.

(** Trying all clauses is such a solver, for every data set. *)
Theorem C26_exact_solver_exists : forall n X y D, dataset n X y -> (0 <= D)%Z ->
  exists solver, exact_pricing n X y D solver.
Proof. intros n X y D HD H. eexists. apply by_enumeration_exact; auto. Qed.
Print Assumptions C26_exact_solver_exists.
Example C26_case : let r := sub_generate_columns (by_enumeration 2 ex_X 4) ex_X ex_y (1 # 4, [1; 1])%Q (submip_init 4) in
  let r' := sub_generate_columns (by_enumeration 2 ex_X 4) ex_X ex_y (1, [1; 1])%Q (submip_init 4) in
  match r, r' with Ok (c, _), Ok (c', _) => c = [[0]] /\ c' = [] | _, _ => False end.
Proof. vm_compute. auto. Qed.

(** * C27 *)
Theorem C27_repricing_equals_rebuilding : forall n X y D lam mu s solver cols s', dataset n X y -> priced_before X y D s ->
  length mu = length (positives X y) -> sub_generate_columns solver X y (lam, mu) s = Ok (cols, s') ->
  exists f, create_submip X y lam mu (submip_init D) = Ok f /\ same_lp (bs_lp s') (bs_lp f)
    /\ bs_D s' = bs_D f /\ bs_generated s' = bs_generated f /\ bs_z s' = bs_z f /\ bs_delta s' = bs_delta f.
Proof.
  intros n X y D lam mu s solver cols s' HD HP Hn E.
  destruct (create_submip_ok n X y HD D lam mu Hn) as (f & Ef & F1 & F2 & F3 & F4 & F5). exists f. split; auto.
  pose proof (priced_before_inv n X y D s' HD (priced_more X y D s solver (lam, mu) cols s' HP Hn E)) as HI.
  pose proof E as E0. unfold sub_generate_columns in E0. cbn [fst snd] in E0.
  destruct (check_duals lam mu) as [u|] eqn:EC; [|discriminate]. apply check_duals_inv in EC. destruct EC as [Hl Hm]. clear E0.
  apply (priced_before_inv n) in HP; auto.
  destruct (sub_generate_ok n X y HD D lam mu s solver HP Hl Hm Hn) as (s1 & S0 & S1 & S2 & SL & E1). rewrite E in E1.
  assert (s' = s1). { destruct (solver (bs_lp s1)); [|discriminate]. destruct (Qle_bool _ _); injection E1 as _ ->; auto. } subst s1.
  split; [eapply same_lp_trans; [exact SL|apply same_lp_sym; exact F5]|].
  destruct HI as [->|(I1 & I2 & I3 & I4 & _)]; [discriminate|]. rewrite F1, F2, F3, F4. auto.
Qed.
Print Assumptions C27_repricing_equals_rebuilding.
(** Hence the answer does not depend on the history either, for a solver that looks only at the model. *)
Theorem C27_history_independent : forall n X y D lam mu s solver, dataset n X y -> priced_before X y D s ->
  length mu = length (positives X y) -> (forall m m', same_lp m m' -> solver m = solver m') ->
  (let* (cols, _) := sub_generate_columns solver X y (lam, mu) s in Ok cols)
  = (let* (cols, _) := sub_generate_columns solver X y (lam, mu) (submip_init D) in Ok cols).
Proof.
  intros n X y D lam mu s solver HD HP Hn HS. apply (priced_before_inv n) in HP; auto.
  destruct (check_duals lam mu) as [u|e] eqn:EC.
  - apply check_duals_inv in EC. destruct EC as [Hl Hm].
    destruct (sub_generate_ok n X y HD D lam mu s solver HP Hl Hm Hn) as (s1 & _ & _ & _ & SL1 & ->).
    destruct (sub_generate_ok n X y HD D lam mu (submip_init D) solver ltac:(left; auto) Hl Hm Hn) as (s2 & _ & _ & _ & SL2 & ->).
    assert (S12 : same_lp (bs_lp s1) (bs_lp s2)) by (eapply same_lp_trans; [exact SL1|apply same_lp_sym; exact SL2]).
    rewrite (HS _ _ S12). destruct (solver (bs_lp s2)) as [x|]; auto. pose proof (same_objective _ _ x S12) as EO.
    destruct (Qle_bool (- eps) (objective_value (bs_lp s1) x)) eqn:B1; destruct (Qle_bool (- eps) (objective_value (bs_lp s2) x)) eqn:B2; auto; exfalso.
    + apply Qle_bool_iff in B1. apply Qle_bool_false in B2. lra.
    + apply Qle_bool_iff in B2. apply Qle_bool_false in B1. lra.
  - unfold sub_generate_columns. cbn [fst snd]. rewrite EC. auto.
Qed.
Print Assumptions C27_history_independent.
Example C27_case :
  match sub_generate_columns (by_enumeration 2 ex_X 4) ex_X ex_y (1, [1; 1])%Q (submip_init 4) with
  | Ok (_, s) => priced_before ex_X ex_y 4 s /\ bs_generated s = true /\
      (let* (cols, _) := sub_generate_columns (by_enumeration 2 ex_X 4) ex_X ex_y (1 # 4, [1; 1])%Q s in Ok cols) = Ok [[0]]
  | Err _ => False end.
Proof.
  destruct (sub_generate_columns (by_enumeration 2 ex_X 4) ex_X ex_y (1, [1; 1])%Q (submip_init 4)) as [[cols s]|e] eqn:E.
  - split; [|split].
    + eapply priced_more; [apply priced_new| |exact E]. reflexivity.
    + vm_compute in E. injection E as _ <-. reflexivity.
    + vm_compute in E. injection E as _ <-. vm_compute. reflexivity.
  - vm_compute in E. discriminate.
Qed.

(** * C29 *)
Theorem C29_explanation : forall n X y C p h x, dataset n X y -> Forall (clause_over n) h -> (0 <= p)%Q ->
  forall s0 s, generate_mp X y (master_init C p) = Ok s0 -> s = fold_left (fun s k => fst (add_column k s)) h s0 ->
  ip_feasible (bm_lp s) x ->
  exists s' rule, solve_ip (Some x) s = (s', Ok true) /\ bm_explanation s' = Some rule
  /\ NoDup rule /\ incl rule (master_clauses h)
  /\ (Z.of_nat (nsum (fun k : clause => 1 + length k)%nat rule) <= C)%Z
  /\ (rule_loss X y p rule <= objective_value (bm_lp s) x)%Q.
Proof.
  intros n X y C p h x HD Hh Hp s0 s E -> F. destruct (generate_mp_ok n X y HD C p) as (s1 & E1 & I & _).
  rewrite E in E1. injection E1 as <-.
  pose proof (fold_master_inv n X y HD C p h Hh [[]] s0 ltac:(left; auto) I) as I'. fold (master_clauses h) in I'.
  pose proof (mi_lp _ _ _ _ _ _ I') as SL. apply (same_ip_feasible _ _ _ SL) in F.
  rewrite (solve_ip_ok X y C p _ _ x I'). eexists _, _. split; [reflexivity|]. split; [reflexivity|].
  assert (ND : NoDup (master_clauses h)).
  { unfold master_clauses. clear. assert (G : forall K, NoDup K -> NoDup (fold_left kept h K)).
    { induction h as [|k h IH]; intros K H; cbn; auto. apply IH. unfold kept. destruct (in_dec clause_dec k K); auto.
      destruct k; auto. apply NoDup_snoc; auto. }
    apply G. constructor; [intros []|constructor]. }
  split; [apply chosen_NoDup; auto|]. split; [intros k Hk; eapply chosen_In; eauto|]. split.
  - pose proof (chosen_complexity X y C p _ x F) as H. unfold qn in H. rewrite <- Zle_Qle in H. exact H.
  - rewrite (same_objective _ _ _ SL). apply chosen_loss; auto.
Qed.
Print Assumptions C29_explanation.
(** No solution: the call raises. *)
Theorem C29_no_solution : forall s, snd (solve_ip None s) = Err AssertionError.
Proof. intros s. unfold solve_ip. destruct (bm_generated s); reflexivity. Qed.
Print Assumptions C29_no_solution.
Example C29_case : let s0 := match generate_mp ex_X ex_y (master_init 4 2) with Ok s => s | Err _ => master_init 0 0 end in
  let s := fst (add_column [0] s0) in
  let x := fun j => if j =? 3 then 1%Q else 0%Q in
  bm_explanation (fst (solve_ip (Some x) s)) = Some [[0]] /\ (rule_loss ex_X ex_y 2 [[0%nat]] == 0)%Q
  /\ (objective_value (bm_lp s) x == 0)%Q.
Proof. vm_compute. repeat split. Qed.

(** * C30 *)
Theorem C30_master_feasible_and_bounded : forall n X y C p h, dataset n X y -> Forall (clause_over n) h -> (0 <= C)%Z -> (0 <= p)%Q ->
  forall s0 s, generate_mp X y (master_init C p) = Ok s0 -> s = fold_left (fun s k => fst (add_column k s)) h s0 ->
  (exists x, ip_feasible (bm_lp s) x) /\ (forall x, lp_feasible (bm_lp s) x -> (0 <= objective_value (bm_lp s) x)%Q).
Proof.
  intros n X y C p h HD Hh HC Hp s0 s E ->. destruct (generate_mp_ok n X y HD C p) as (s1 & E1 & I & _).
  rewrite E in E1. injection E1 as <-.
  pose proof (fold_master_inv n X y HD C p h Hh [[]] s0 ltac:(left; auto) I) as I'. fold (master_clauses h) in I'.
  pose proof (mi_lp _ _ _ _ _ _ I') as SL. split.
  - exists (zero_point X y). eapply same_ip_feasible; [apply same_lp_sym; exact SL|]. apply problem1_ip_feasible; auto.
  - intros x F. rewrite (same_objective _ _ _ SL). apply (same_feasible _ _ _ SL) in F. rewrite p1_objective_value. apply p1_feasible_iff in F.
    destruct F as (F1 & F2 & _). unfold p1_objective. 
    assert (A : (0 <= qsum (fun q => q) (penalties X y x))%Q).
    { apply qsum_nonneg. intros q Hq. clear -F1 Hq. induction F1 as [|r q' R xi [H _] F IH]; [destruct Hq|]. destruct Hq as [<-|Hq]; auto. }
    assert (B : (0 <= qsum (fun kw => qn (false_positives X y (fst kw)) * snd kw) (weights X y (master_clauses h) x))%Q).
    { apply qsum_nonneg. intros [k w] Hk. rewrite Forall_forall in F2. specialize (F2 _ Hk). cbn [fst snd] in *.
      apply Qmult_le_0_compat; auto. unfold qn. change 0%Q with (inject_Z 0). rewrite <- Zle_Qle. lia. }
    assert (0 <= p * qsum (fun q => q) (penalties X y x))%Q by (apply Qmult_le_0_compat; auto). lra.
Qed.
Print Assumptions C30_master_feasible_and_bounded.
Theorem C30_pricing_feasible_and_bounded : forall n X y D lam mu, dataset n X y -> (0 <= D)%Z -> length mu = length (positives X y) ->
  (0 <= lam)%Q -> Forall (fun m => 0 <= m)%Q mu ->
  (exists x, ip_feasible (problem2 n X y D lam mu) x)
  /\ exists b, forall x, ip_feasible (problem2 n X y D lam mu) x -> (b <= objective_value (problem2 n X y D lam mu) x)%Q.
Proof.
  intros n X y D lam mu HD H0 Hn Hl Hm. split.
  - exists (clause_point n X []). apply (clause_point_feasible n X y HD D lam mu Hn); [constructor|constructor|cbn; lia].
  - destruct (by_enumeration_exact n X y D HD H0 0 _ lam mu Hl Hm Hn (same_lp_refl _)) as (x & _ & _ & Op).
    exists (objective_value (problem2 n X y D lam mu) x). exact Op.
Qed.
Print Assumptions C30_pricing_feasible_and_bounded.
Example C30_case : exists s0, generate_mp ex_X ex_y (master_init 4 2) = Ok s0.
Proof. eexists. reflexivity. Qed.

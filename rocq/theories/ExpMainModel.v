(** Model of main in examples/dtree_experiment.py: preparation, training and the two rows of the results file (definitions
    only; line numbers refer to that file unless said otherwise).

    Simplifications: reading the files, the label encoder and CART fitting are external: training and test data with encoded
    labels and the fitted CART trees are arguments.  scikit-learn converts samples to float32 before it evaluates a CART
    tree; the conversion is an argument.  The time() calls of main, of preprocess and of fit read three
    streams.  Printing and the time for cut generation in the results file are not modelled. *)
From Verif Require Import Base Lp FitModel TreeModel TreePricingModel TreeFitModel ExpModel.
Open Scope nat_scope.

(** Command line options, lines 60-108; [op_time]: the argument of -s.  A negative depth is not modelled. *)
Record options := mkOptions { op_depth : nat; op_iterations : Z; op_time : option Z }.
(** time_limit and preprocessing_time_limit. *)
Definition budget (o : options) : Q := match op_time o with Some t => inject_Z t | None => 600 end.
Definition pre_budget (o : options) : Q := match op_time o with Some t => inject_Z t / 3 | None => 200 end.

(** What main takes from outside. *)
Record world := mkWorld {
  wd_X : list sample;  wd_y : list nat;          (* X_train, y_train *)
  wd_Xt : list sample; wd_yt : list nat;         (* X_test, y_test *)
  wd_first : nat -> cart;                        (* trees of lines 149-157, by random_state *)
  wd_final : cart;                               (* tree of lines 175-178 *)
  wd_class : nat -> nat;                         (* its class at each node: argmax of tree_.value *)
  wd_single : Q -> Q;                            (* conversion of a feature value to float32 in predict *)
  wd_more : nat -> cart;                         (* trees of lines 235-243 *)
  wd_clock : nat -> Q;                           (* time() in main *)
  wd_pre_clock : nat -> Q;                       (* time() in preprocess *)
  wd_fit_clock : nat -> Q;                       (* time() in fit *)
  wd_solvers : fsolvers
}.

(** DecisionTreeClassifier.predict: the leaf a sample reaches.  [fuel]: the number of nodes suffices. *)
Fixpoint cart_leaf (fuel : nat) (c : cart) (x : sample) (i : nat) : res nat :=
  match fuel with
  | O => Err IndexError
  | S fuel' =>
      let* a := getitem (ct_left c) i in
      let* b := getitem (ct_right c) i in
      if (a =? b)%Z then Ok i
      else let* f := getitem (ct_feature c) i in
           let* t := getitem (ct_threshold c) i in
           let* v := getitem x f in
           cart_leaf fuel' c x (Z.to_nat (if Qle_bool v t then a else b))
  end.
Definition cart_predict (single : Q -> Q) (c : cart) (class : nat -> nat) (X : list sample) : res (list nat) :=
  map_res (fun x => let* i := cart_leaf (S (ct_count c)) c (map single x) 0 in Ok (class i)) X.

(** ClassifierMixin.score: the share of right predictions.  No samples: predict raises ValueError. *)
Definition score (pred y : list nat) : res Q :=
  if length pred =? 0 then Err ValueError
  else Ok (inject_Z (Z.of_nat (length (filter (fun ab => fst ab =? snd ab) (combine pred y)))) / inject_Z (Z.of_nat (length pred)))%Q.

(** Lines 150-151 and 238-239: is the time for preprocessing over?  time() is called only if there is a limit. *)
Definition over (limit : Q) (clk : nat -> Q) (k : nat) : bool := Qltb 0 limit && Qltb limit (clk k - clk 0).
Definition tick (limit : Q) (k : nat) : nat := if Qltb 0 limit then S k else k.
(** Lines 149-157 and 235-243: trees are fitted until the time is over. *)
Fixpoint take_trees (is : list nat) (make : nat -> cart) (limit : Q) (clk : nat -> Q) (k : nat) : list cart * nat :=
  match is with
  | [] => ([], k)
  | i :: is' =>
      if over limit clk k then ([], S k)
      else let '(cs, k') := take_trees is' make limit clk (tick limit k) in (make i :: cs, k')
  end.

(** One row of the results file, lines 187-191 and 318-340. *)
Record results := mkResults {
  rs_train : Q;                 (* train_accuracy *)
  rs_test : Q;                  (* test_accuracy *)
  rs_pre : Q;                   (* preprocessing_time *)
  rs_time : Q;                  (* training_time *)
  rs_iterations : nat;          (* total_iterations *)
  rs_improving : nat;           (* num_improving_iter *)
  rs_cols_heuristic : nat;      (* sp_cols_added_heuristic *)
  rs_cols_ip : nat;             (* sp_cols_added_ip *)
  rs_hit_rate : Q;              (* heuristic_hit_rate *)
  rs_master : Q;                (* master_time *)
  rs_cuts : nat;                (* master_num_cuts *)
  rs_sp_heuristic : Q;          (* sp_time_heuristic *)
  rs_sp_ip : Q;                 (* sp_time_ip *)
  rs_add : Q;                   (* col_add_time *)
  rs_ip : Q                     (* master_ip_time *)
}.

(** The state of main after training, before the scores are computed. *)
Record trained := mkTrained {
  td_first : list cart;         (* trees used by the first loop *)
  td_extra : list cart;         (* trees used by the second loop *)
  td_args : targs;              (* arguments of DTreeClassifier *)
  td_state : fstate tworld tduals path;
  td_pre : Q;                   (* preprocessing_time *)
  td_cart_time : Q
}.

Definition lift {A} (r : res A) : outcome A := match r with Ok a => Done a | Err e => Raised e end.
Definition obind {A B} (m : outcome A) (f : A -> outcome B) : outcome B :=
  match m with Done a => f a | Raised e => Raised e | NoFuel => NoFuel end.

(** Lines 131-309 without the scores of the CART tree. *)
Definition train (wd : world) (o : options) (fuel : nat) : outcome trained :=
  let X := wd_X wd in let y := wd_y wd in let clk := wd_clock wd in let limit := pre_budget o in
  let '(cs, k1) := take_trees (seq 0 300) (wd_first wd) limit clk 1 in
  let cart_time := (clk (S k1) - clk k1)%Q in
  let '(extra, k2) := take_trees (seq 0 100) (wd_more wd) limit clk (k1 + 2) in
  let aggressive := (5000 <=? length X) && negb (over limit clk k2) in
  let k3 := tick limit k2 in
  let rest := (limit - (clk k3 - clk 0%nat))%Q in
  obind (lift (prepare (op_depth o) cs (wd_final wd) extra X y aggressive rest (wd_pre_clock wd)))
    (fun out =>
       let '(paths, leaves, nodes, splits, rows) := out in
       let pre := (clk (S k3) - clk 0%nat)%Q in
       let A := mkTargs paths leaves nodes splits (op_depth o) (unique_classes y) (op_iterations o) (budget o - pre)%Q 10 true false
                  (Some rows) false in
       obind (lift (dtree_init A))
         (fun w => match tree_fit (wd_solvers wd) A (wd_fit_clock wd) X y fuel (new_estimator w) with
                   | (s, Done tt) => Done (mkTrained cs extra A s pre cart_time)
                   | (_, Raised e) => Raised e
                   | (_, NoFuel) => NoFuel
                   end)).

(** clf.score(X, y), lines 312 and 314.  The labels are the encoded ones: the estimator's classes are the numbers that occur. *)
Definition classes_of (y : list nat) : list nat := map Z.to_nat (unique_classes y).
Definition tree_score (wd : world) (t : trained) (X : list sample) (y : list nat) : res Q :=
  let* pred := tree_predict (td_args t) (classes_of (wd_y wd)) (td_state t) X in score pred y.

(** Lines 187-191. *)
Definition cart_row (wd : world) (t : trained) : res results :=
  let* p := cart_predict (wd_single wd) (wd_final wd) (wd_class wd) (wd_X wd) in
  let* a := score p (wd_y wd) in
  let* pt := cart_predict (wd_single wd) (wd_final wd) (wd_class wd) (wd_Xt wd) in
  let* b := score pt (wd_yt wd) in
  Ok (mkResults a b 0 (td_cart_time t) 0 0 0 0 0 0 0 0 0 0 0).
(** Lines 318-340.  Of time_spent_sp_ and num_col_added_sp_: the entry [0][0] and the sum over level 1.  The time for cut generation
    (mster_cuts_time) is modelled in CutTimeModel.v. *)
Definition tree_results (wd : world) (t : trained) : res results :=
  let s := td_state t in
  let* a := tree_score wd t (wd_X wd) (wd_y wd) in
  let* b := tree_score wd t (wd_Xt wd) (wd_yt wd) in
  let* l0 := getitem (f_cols s) 0 in
  let* c0 := getitem l0 0 in
  let* l1 := getitem (f_cols s) 1 in
  let* q0 := getitem (f_tsp s) 0 in
  let* e0 := getitem q0 0 in
  let* q1 := getitem (f_tsp s) 1 in
  let h := tw_heur (f_world s) in
  let total := h_success h + h_failed h in
  Ok (mkResults a b (td_pre t) (f_elapsed s) (f_iter s) (f_improving s) c0 (list_sum l1)
        (if 0 <? total then (inject_Z (Z.of_nat (h_success h)) / inject_Z (Z.of_nat total))%Q else 0%Q)
        (f_tmaster s) (tm_total_cuts (tw_master (f_world s))) e0 (qsum (fun q => q) q1) (f_tadd s) (f_tip s)).

(** main: the rows CART and CG1 of the results file.  The CART row is computed before training in the code; neither depends on
    the other. *)
Definition main (wd : world) (o : options) (fuel : nat) : outcome (results * results) :=
  obind (train wd o fuel)
    (fun t => obind (lift (cart_row wd t)) (fun r1 => obind (lift (tree_results wd t)) (fun r2 => Done (r1, r2)))).

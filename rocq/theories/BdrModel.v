(** Model of col_gen_estimator/_bdr_classifier.py (definitions only).

    A data matrix is the list of its rows; entries are rationals.  Labels are those produced by scikit-learn's LabelEncoder in
    fit (0, 1, ...).  Printing and solver parameters are not modelled.  OR-Tools solver answers are arguments. *)
From Verif Require Import Base Lp.
Open Scope nat_scope.

Definition matrix := list (list Q).
Definition clause := list nat.

(** [X.shape[1]] *)
Definition n_columns (X : matrix) : nat := length (nth 0 X []).

Definition clause_eqb (a b : clause) : bool := if list_eq_dec Nat.eq_dec a b then true else false.

(** Python dictionaries with integer keys, in insertion order. *)
Fixpoint dict_get {A} (d : list (nat * A)) (k : nat) : res A :=
  match d with
  | [] => Err KeyError
  | (k', a) :: d' => if k' =? k then Ok a else dict_get d' k
  end.
Fixpoint dict_set {A} (d : list (nat * A)) (k : nat) (a : A) : list (nat * A) :=
  match d with
  | [] => [(k, a)]
  | (k', a') :: d' => if k' =? k then (k', a) :: d' else (k', a') :: dict_set d' k a
  end.

(** * BDRMasterProblem *)

(** satisfies_clause, lines 356-369. *)
Fixpoint satisfies_clause (entry : list Q) (c : clause) : res nat :=
  match c with
  | [] => Ok 1
  | index :: c' =>
      let* e := getitem entry index in
      if Qeq_bool e 0 then Ok 0 else satisfies_clause entry c'
  end.

(** get_objective_coeff_mp, lines 371-387. *)
Definition get_objective_coeff_mp (X : matrix) (y : list nat) (c : clause) : res nat :=
  for_each (seq 0 (length X))
    (fun i num =>
       let* entry := getitem X i in
       let* target := getitem y i in
       if target =? 1 then Ok num
       else let* s := satisfies_clause entry c in Ok (num + s)) 0.

(** get_clause_coeffs, lines 389-408. *)
Definition get_clause_coeffs (X : matrix) (y : list nat) (c : clause) : res (list nat) :=
  let* coeffs :=
    for_each (seq 0 (length X))
      (fun i coeffs =>
         let* entry := getitem X i in
         let* target := getitem y i in
         if target =? 0 then Ok coeffs
         else let* s := satisfies_clause entry c in Ok (coeffs ++ [s])) [] in
  Ok (coeffs ++ [length c + 1]).

(** [bitarray.util.int2ba(n)]: big endian, without leading zeros, one digit for 0. *)
Fixpoint pos_bits (p : positive) : list bool :=
  match p with
  | xH => [true]
  | xO q => pos_bits q ++ [false]
  | xI q => pos_bits q ++ [true]
  end.
Definition int2ba (n : N) : list bool := match n with N0 => [false] | Npos p => pos_bits p end.

(** generate_lexicographic_clause, lines 411-420. *)
Definition generate_lexicographic_clause (index : N) : clause :=
  let ind := rev (int2ba index) in
  filter (fun i => nth i ind false) (seq 0 (length ind)).

(** Attributes, lines 146-165 (and X_, y__ of lines 180-181, explanation of line 337).
    [C_] is an integer, [p_] a number. *)
Record master := mkMaster {
  bm_generated : bool;
  bm_C : Z;
  bm_p : Q;
  bm_X : matrix;
  bm_y : list nat;
  bm_lp : lp;                            (* solver_ *)
  bm_clause_vars : list nat;
  bm_xi_vars : list nat;
  bm_satisfaction : list nat;            (* clause_satisfaction_ *)
  bm_complexity : nat;                   (* clause_complexity_ *)
  bm_dict : list (nat * clause);         (* clause_dict_ *)
  bm_explanation : option (list clause)
}.

(** BDRMasterProblem.__init__, lines 151-165. *)
Definition master_init (C : Z) (p : Q) : master :=
  mkMaster false C p [] [] empty_lp [] [] [] 0 [] None.

Definition qn (n : nat) : Q := inject_Z (Z.of_nat n).

(** Lines 195-201: the penalty variables. *)
Definition make_xi (p : Q) (n_positive : nat) (m : lp) : lp * list nat :=
  fold_left (fun st (_ : nat) =>
    let '(m, xis) := st in
    let '(v, m1) := new_var (Some 0%Q) None true m in
    (set_obj v p m1, xis ++ [v])) (seq 0 n_positive) (m, []).

(** Lines 203-212: the initial clause variables. *)
Definition make_clauses (X : matrix) (y : list nat) (n_clauses : nat) (m : lp)
  : res (lp * list nat * list (nat * clause)) :=
  for_each (seq 0 n_clauses)
    (fun i st =>
       let '(m, vars, dict) := st in
       let '(v, m1) := new_var (Some 0%Q) None true m in
       let c := generate_lexicographic_clause (N.of_nat i) in
       let* obj := get_objective_coeff_mp X y c in
       Ok (set_obj v (qn obj) m1, vars ++ [v], dict_set dict v c)) (m, [], []).

(** Lines 221-226: the satisfaction constraints. *)
Definition make_satisfaction (xis : list nat) (n_positive : nat) (m : lp) : res (lp * list nat) :=
  for_each (seq 0 n_positive)
    (fun i st =>
       let '(m, cs) := st in
       let '(c, m1) := new_con (Some 1%Q) None m in
       let* xi := getitem xis i in
       Ok (set_coef c xi 1%Q m1, cs ++ [c])) (m, []).

(** Lines 231-234 and 266-274: the coefficients of one clause variable. *)
Definition set_clause_coeffs (coeffs : list nat) (satisfaction : list nat) (complexity : nat) (n_positive : nat)
    (v : nat) (m : lp) : res lp :=
  let* m1 := for_each (seq 0 n_positive)
    (fun j m => let* c := getitem satisfaction j in
                let* a := getitem coeffs j in
                Ok (set_coef c v (qn a) m)) m in
  let* a := getitem coeffs (length coeffs - 1) in           (* coeffs[-1] *)
  Ok (set_coef complexity v (qn a) m1).

(** generate_mp, lines 167-234. *)
Definition generate_mp (X : matrix) (y : list nat) (s : master) : res master :=
  if bm_generated s then Ok s
  else
    let n_positive := length (filter (fun t => 0 <? t) y) in
    let n_clauses := 1 in
    let '(m1, xis) := make_xi (bm_p s) n_positive (bm_lp s) in
    let* (m2, vars, dict) := make_clauses X y n_clauses m1 in
    let m3 := set_dir false m2 in
    let '(cc, m4) := new_con None (Some (inject_Z (bm_C s))) m3 in
    let* (m5, cs) := make_satisfaction xis n_positive m4 in
    let* m6 := for_each (seq 0 n_clauses)
      (fun i m =>
         let* v := getitem vars i in
         let* c := dict_get dict v in
         let* coeffs := get_clause_coeffs X y c in
         set_clause_coeffs coeffs cs cc n_positive v m) m5 in
    Ok (mkMaster true (bm_C s) (bm_p s) X y m6 vars xis cs cc dict (bm_explanation s)).

(** add_column, lines 236-275.  The first component is the object after the call, also when the call raises. *)
Definition add_column (c : clause) (s : master) : master * res bool :=
  if negb (bm_generated s) then (s, Err AssertionError)
  else if length c =? 0 then (s, Ok false)
  else if existsb (fun kc => clause_eqb (snd kc) c) (bm_dict s) then (s, Err AssertionError)
  else
    let n_positive := num_cons (bm_lp s) - 1 in
    let '(v, m1) := new_var (Some 0%Q) None true (bm_lp s) in
    let s1 m := mkMaster true (bm_C s) (bm_p s) (bm_X s) (bm_y s) m (bm_clause_vars s ++ [v]) (bm_xi_vars s)
                  (bm_satisfaction s) (bm_complexity s) (dict_set (bm_dict s) v c) (bm_explanation s) in
    match get_objective_coeff_mp (bm_X s) (bm_y s) c with
    | Err e => (s1 m1, Err e)
    | Ok obj =>
        let m2 := set_obj v (qn obj) m1 in
        match get_clause_coeffs (bm_X s) (bm_y s) c with
        | Err e => (s1 m2, Err e)
        | Ok coeffs =>
            if negb (n_positive =? length (bm_satisfaction s)) then (s1 m2, Err AssertionError)
            else match set_clause_coeffs coeffs (bm_satisfaction s) (bm_complexity s) n_positive v m2 with
                 | Err e => (s1 m2, Err e)
                 | Ok m3 => (s1 m3, Ok true)
                 end
        end
    end.

(** solve_rmp, lines 277-309.  [duals c] is [solver_.constraint(c).dual_value()] after the solve. *)
Definition solve_rmp (duals : nat -> Q) (s : master) : res (Q * list Q) :=
  let* _ := assert (bm_generated s) in
  let n_positive := num_cons (bm_lp s) - 1 in
  let cc_dual := Qabs (duals (bm_complexity s)) in
  let* cs_duals := map_res (fun i => let* c := getitem (bm_satisfaction s) i in Ok (duals c)) (seq 0 n_positive) in
  Ok (cc_dual, cs_duals).

(** solve_ip, lines 311-353.  [answer] is the solution found by the integer solver ([None]: neither OPTIMAL nor FEASIBLE)
    for the exported model, which has the variables of [solver_] in order. *)
Definition with_explanation (s : master) (e : list clause) : master :=
  mkMaster (bm_generated s) (bm_C s) (bm_p s) (bm_X s) (bm_y s) (bm_lp s) (bm_clause_vars s) (bm_xi_vars s)
           (bm_satisfaction s) (bm_complexity s) (bm_dict s) (Some e).
Definition solve_ip (answer : option (nat -> Q)) (s : master) : master * res bool :=
  if negb (bm_generated s) then (s, Err AssertionError)
  else
    let num_xi := length (bm_xi_vars s) in
    match answer with
    | None => (with_explanation s [], Err AssertionError)
    | Some x =>
        if negb (num_vars (bm_lp s) =? num_xi + length (bm_clause_vars s)) then (with_explanation s [], Err AssertionError)
        else
          match for_each (seq num_xi (num_vars (bm_lp s) - num_xi))
                  (fun i explanation =>
                     if Qltb 0 (x i) then
                       let* v := getitem (bm_clause_vars s) (i - num_xi) in
                       let* c := dict_get (bm_dict s) v in
                       Ok (explanation ++ [c])
                     else Ok explanation) [] with
          | Err e => (with_explanation s [], Err e)
          | Ok e => (with_explanation s e, Ok true)
          end
    end.

(** * BDRSubProblem *)

(** Attributes, lines 452-461. *)
Record submip := mkSubmip {
  bs_D : Z;
  bs_generated : bool;
  bs_lp : lp;                (* solver_ *)
  bs_z : list nat;           (* z_vars_ *)
  bs_delta : list nat        (* delta_vars_ *)
}.
Definition submip_init (D : Z) : submip := mkSubmip D false empty_lp [] [].

(** Lines 484-488. *)
Definition make_z (cc_dual : Q) (n_words : nat) (m : lp) : lp * list nat :=
  fold_left (fun st (_ : nat) =>
    let '(m, zs) := st in
    let '(v, m1) := new_var (Some 0%Q) (Some 1%Q) true m in
    (set_obj v cc_dual m1, zs ++ [v])) (seq 0 n_words) (m, []).

(** Lines 495-499 and 545-549: objective coefficient of delta_i; [k] counts the positive samples seen. *)
Definition delta_coeff (cs_duals : list Q) (target : nat) (k : nat) : res (Q * nat) :=
  if target =? 1 then let* d := getitem cs_duals k in Ok ((1 * - d)%Q, S k) else Ok (1%Q, k).

(** Lines 490-500. *)
Definition make_delta (y : list nat) (cs_duals : list Q) (n_samples : nat) (m : lp) : res (lp * list nat * nat) :=
  for_each (seq 0 n_samples)
    (fun i st =>
       let '(m, deltas, k) := st in
       let '(v, m1) := new_var (Some 0%Q) (Some 1%Q) true m in
       let* target := getitem y i in
       let* (q, k1) := delta_coeff cs_duals target k in
       Ok (set_obj v q m1, deltas ++ [v], k1)) (m, [], 0).

(** [self.X_[i, j]] *)
Definition entry (X : matrix) (i j : nat) : res Q := let* r := getitem X i in getitem r j.

(** Lines 506-515: a positive sample. *)
Definition positive_cons (X : matrix) (zs : list nat) (n_words i delta : nat) (m : lp) : res lp :=
  for_each (seq 0 n_words)
    (fun j m =>
       let* e := entry X i j in
       if Qeq_bool e 0 then
         let '(c, m1) := new_con (Some 0%Q) (Some 1%Q) m in
         let* z := getitem zs j in
         Ok (set_coef c z 1%Q (set_coef c delta 1%Q m1))
       else Ok m) m.

(** Lines 516-522: a negative sample. *)
Definition negative_con (X : matrix) (zs : list nat) (n_words i delta : nat) (m : lp) : res lp :=
  let '(c, m1) := new_con (Some 1%Q) None m in
  for_each (seq 0 n_words)
    (fun j m =>
       let* e := entry X i j in
       if Qeq_bool e 0 then let* z := getitem zs j in Ok (set_coef c z 1%Q m) else Ok m)
    (set_coef c delta 1%Q m1).

(** create_submip, lines 463-525.  An exception aborts; the half-built model is not kept in this model. *)
Definition create_submip (X : matrix) (y : list nat) (cc_dual : Q) (cs_duals : list Q) (s : submip) : res submip :=
  let* _ := assert (negb (bs_generated s)) in
  let n_words := n_columns X in
  let n_samples := length X in
  let '(m1, zs) := make_z cc_dual n_words (bs_lp s) in
  let* (m2, deltas, _) := make_delta y cs_duals n_samples m1 in
  let m3 := set_dir false (set_offset cc_dual m2) in
  let* m4 := for_each (seq 0 n_samples)
    (fun i m =>
       let* delta := getitem deltas i in
       let* target := getitem y i in
       if target =? 1 then positive_cons X zs n_words i delta m
       else negative_con X zs n_words i delta m) m3 in
  let '(c, m5) := new_con (Some 0%Q) (Some (inject_Z (bs_D s))) m4 in
  let* m6 := for_each (seq 0 n_words)
    (fun j m => let* z := getitem zs j in Ok (set_coef c z 1%Q m)) m5 in
  Ok (mkSubmip (bs_D s) true m6 zs deltas).

(** update_objective, lines 527-556. *)
Definition update_objective (X : matrix) (y : list nat) (cc_dual : Q) (cs_duals : list Q) (s : submip) : res submip :=
  let* _ := assert (bs_generated s) in
  let* m1 := for_each (seq 0 (n_columns X))
    (fun i m => let* z := getitem (bs_z s) i in Ok (set_obj z cc_dual m)) (bs_lp s) in
  let* (m2, _) := for_each (seq 0 (length X))
    (fun i st =>
       let '(m, k) := st in
       let* target := getitem y i in
       let* (q, k1) := delta_coeff cs_duals target k in
       let* d := getitem (bs_delta s) i in
       Ok (set_obj d q m, k1)) (m1, 0) in
  Ok (mkSubmip (bs_D s) true (set_dir false (set_offset cc_dual m2)) (bs_z s) (bs_delta s)).

(** The threshold 1e-6 (the float literal is read as the decimal number). *)
Definition eps : Q := 1 # 1000000.

(** Lines 577-580 and 738-741. *)
Definition check_duals (cc_dual : Q) (cs_duals : list Q) : res unit :=
  let* _ := assert (Qle_bool 0 cc_dual) in
  for_each cs_duals (fun d _ => assert (Qle_bool 0 d)) tt.

(** generate_columns, lines 558-608.  [solver m] is the solution found for model [m] ([None]: no solution);
    [Objective().Value()] is the objective at that solution. *)
Definition sub_generate_columns (solver : lp -> option (nat -> Q)) (X : matrix) (y : list nat) (duals : Q * list Q)
    (s : submip) : res (list clause * submip) :=
  let cc_dual := fst duals in
  let cs_duals := snd duals in
  let* _ := check_duals cc_dual cs_duals in
  let* s1 := (if bs_generated s then update_objective X y cc_dual cs_duals s
              else create_submip X y cc_dual cs_duals s) in
  match solver (bs_lp s1) with
  | None => Err AssertionError
  | Some x =>
      if Qle_bool (- eps) (objective_value (bs_lp s1) x) then Ok ([], s1)
      else
        let* c := for_each (seq 0 (length (bs_z s1)))
          (fun i c => let* z := getitem (bs_z s1) i in Ok (if Qltb 0 (x z) then c ++ [i] else c)) [] in
        Ok ([c], s1)
  end.

(** * BDRHeuristic *)

(** [itertools.combinations(l, k)] *)
Fixpoint combinations (l : list nat) (k : nat) {struct l} : list (list nat) :=
  match k, l with
  | O, _ => [[]]
  | S _, [] => []
  | S k', x :: l' => map (cons x) (combinations l' k') ++ combinations l' k
  end.

(** Lines 752-769: reduced cost of one clause.  [pos] is [pos_ind + 1]. *)
Definition heuristic_reduced_cost (X : matrix) (y : list nat) (cc_dual : Q) (cs_duals : list Q) (c : clause) : res Q :=
  let* (rc, _) := for_each (seq 0 (length X))
    (fun j st =>
       let '(rc, pos) := st in
       let* e := getitem X j in
       let* target := getitem y j in
       let pos1 := if target =? 1 then S pos else pos in
       let* satisfied := satisfies_clause e c in
       if satisfied =? 0 then Ok (rc, pos1)
       else if target =? 1 then let* d := getitem cs_duals (pos1 - 1) in Ok ((rc - d)%Q, pos1)
       else Ok ((rc + 1)%Q, pos1))
    ((cc_dual * qn (1 + length c))%Q, 0) in
  Ok rc.

(** generate_columns, lines 715-778. *)
Definition heuristic_generate_columns (K : nat) (X : matrix) (y : list nat) (duals : Q * list Q) : res (list clause) :=
  let cc_dual := fst duals in
  let cs_duals := snd duals in
  let* _ := check_duals cc_dual cs_duals in
  for_each (seq 1 K)
    (fun size acc =>
       for_each (combinations (seq 0 (n_columns X)) size)
         (fun c acc =>
            let* rc := heuristic_reduced_cost X y cc_dual cs_duals c in
            Ok (if Qltb rc (- eps) then acc ++ [c] else acc)) acc) [].

(** * BooleanDecisionRuleClassifier *)

(** Lines 690-701: does some clause of the explanation accept the sample? *)
Fixpoint any_clause (row : list Q) (explanation : list clause) : res nat :=
  match explanation with
  | [] => Ok 0
  | c :: rest => let* s := satisfies_clause row c in if s =? 0 then any_clause row rest else Ok 1
  end.

(** predict, lines 677-703.  [classes] are the labels seen in fit, sorted (LabelEncoder.classes_); inverse_transform maps a
    code to its label and raises ValueError for an unknown code. *)
Definition predict {L} (classes : list L) (explanation : list clause) (X : matrix) : res (list L) :=
  let* codes := map_res (fun row => any_clause row explanation) X in
  map_res (fun k => match nth_error classes k with Some l => Ok l | None => Err ValueError end) codes.

(** Model of the subproblems of the tree classifier in col_gen_estimator/_dtree_classifier.py (definitions only; line numbers
    refer to that file): DTreeSubProblemHeuristic, DTreeSubProblem, DTreeSubProblemSat with its PathGenerator callback, and
    DTreeSubProblemOld.

    Simplifications, besides those of TreeModel.v: the data and labels used by generate_columns are those of the last
    update_subproblem call (the fit loop passes the same); random.choice reads a stream of numbers; the iteration order of a
    Python set is an arbitrary rearrangement; a CP-SAT model is written as an integer program with 0/1 variables. *)
From Coq Require Import Qround.
From Verif Require Import Base Lp TreeModel TunerModel SolveModel.
Open Scope nat_scope.

(** Python [l[z]] for an index that may be negative. *)
Definition getitemZ {A} (l : list A) (z : Z) : res A :=
  if (z <? 0)%Z then
    (if (Z.of_nat (length l) + z <? 0)%Z then Err IndexError else getitem l (Z.to_nat (Z.of_nat (length l) + z)))
  else getitem l (Z.to_nat z).

(** Lines 1200-1203, 1969-1973 and the like: the weight of row [i], or [None] if the row is removed from the subproblems. *)
Definition weigh (rows : option (list row)) (i : nat) : res (option nat) :=
  match rows with
  | None => Ok (Some 1)
  | Some l => let* dr := getitem l i in Ok (if r_gone_sp dr then None else Some (r_weight dr))
  end.

(** * The heuristic *)

(** Attributes of DTreeSubProblemHeuristic, lines 1932-1934. *)
Record heuristic := mkHeur { h_cuts : nat; h_failed : nat; h_success : nat }.
Definition heur_init : heuristic := mkHeur 0 0 0.

(** [random.choice(l)]: the next number of the stream selects the element; an empty list raises IndexError. *)
Definition choice {A} (rand : nat -> nat) (k : nat) (l : list A) : res (A * nat) :=
  if length l =? 0 then Err IndexError else let* a := getitem l (rand k mod length l) in Ok (a, S k).
(** [l.remove(s)]: the first occurrence. *)
Fixpoint remove_first (s : nat) (l : list nat) : list nat :=
  match l with [] => [] | a :: l' => if a =? s then l' else a :: remove_first s l' end.

(** Lines 1951-1963: choose a split for each node; [None] if a node has no unused candidate. *)
Fixpoint pick_splits (rand : nat -> nat) (nodes : list node) (ids chosen : list nat) (k : nat) : res (option (list nat) * nat) :=
  match ids with
  | [] => Ok (Some chosen, k)
  | id :: ids' =>
      let* nd := getitem nodes id in
      let cands := fold_left (fun c s => if memb s c then remove_first s c else c) chosen (n_cands nd) in
      if length cands =? 0 then Ok (None, k)
      else let* (s, k1) := choice rand k cands in pick_splits rand nodes ids' (chosen ++ [s]) k1
  end.

(** Lines 1978-1996: one satisfied row.  State: row_satisfies_path_array, possible_targets, (best_target,
    best_target_count). *)
Definition count_row (y : list nat) (rows : option (list row)) (r : nat) (st : list bool * list (nat * nat) * (Z * nat))
  : res (list bool * list (nat * nat) * (Z * nat)) :=
  let '(flags, counts, best) := st in
  let* flags1 := setitem flags r true in
  let* w := weigh rows r in
  match w with
  | None => Ok (flags1, counts, best)
  | Some w =>
      let* t := getitem y r in
      let c := match assoc Nat.eqb counts t with Some c => c + w | None => w end in
      Ok (flags1, assoc_set Nat.eqb counts t c, if snd best <? c then (Z.of_nat t, c) else best)
  end.

(** Lines 1966-1998: the class with the largest total weight among the satisfied rows, which are visited in the order [rs];
    -1 if there is none.  Also returns which rows satisfy the path. *)
Definition choose_target (n_rows : nat) (y : list nat) (rows : option (list row)) (rs : list nat) : res (list bool * (Z * nat)) :=
  let* (flags, _, best) := for_each rs (count_row y rows) (repeat false n_rows, [], ((-1)%Z, 0)) in Ok (flags, best).

(** get_reduced_cost, lines 2034-2068.  A missing leaf dual is skipped (IndexError is caught). *)
Definition get_reduced_cost (n_rows : nat) (leaves : list leaf) (splits : list split) (dl : tduals) (p : path)
    (flags : list bool) : res Q :=
  let start := match nth_error (d_leaf dl) (p_leaf p) with Some q => (0 - q)%Q | None => 0%Q end in
  let* rc1 := for_each (seq 0 n_rows)
    (fun r acc => let* f := getitem flags r in
                  if (f : bool) then let* q := getitem (d_row dl) r in Ok (acc - q)%Q else Ok acc) (start + p_cost p)%Q in
  let* lf := getitem leaves (p_leaf p) in
  let* cuts := get_satisfied_cuts p lf splits in
  let* rc2 := for_each cuts (fun c acc => let* q := getitem (d_cut dl) c in Ok (acc - q)%Q) rc1 in
  for_each (seq 0 (length (p_nodes p)))
    (fun i acc => let* n := getitem (p_nodes p) i in
                  let* k := getitem (p_splits p) i in
                  let* q := lookup key3_eqb (d_ns dl) (p_leaf p, n, k) in Ok (acc - q)%Q) rc2.

(** Lines 2000-2004. *)
Fixpoint same_as_any (p : path) (qs : list path) : res bool :=
  match qs with
  | [] => Ok false
  | q :: qs' => let* b := is_same_as p q in if (b : bool) then Ok true else same_as_any p qs'
  end.

(** Lines 1942-2019: one round.  State: generated_paths, failed_rounds, position in the random stream.  [order] is the
    iteration order of the set of satisfied rows. *)
Definition heur_round (rand : nat -> nat) (order : list nat -> list nat) (n_rows : nat) (y : list nat)
    (rows : option (list row)) (leaves : list leaf) (nodes : list node) (splits : list split) (dl : tduals)
    (st : list path * nat * nat) : res (list path * nat * nat) :=
  let '(generated, failed, k) := st in
  let* (lf, k1) := choice rand k leaves in
  let ids := l_left lf ++ l_right lf in
  let* (chosen, k2) := pick_splits rand nodes ids [] k1 in
  match chosen with
  | None => Ok (generated, S failed, k2)
  | Some ss =>
      let* sat := get_satisfied_rows (mkPath (l_id lf) ids ss 0 0 (-1) false) lf splits in
      let* (flags, (target, count)) := choose_target n_rows y rows (order sat) in
      let p := mkPath (l_id lf) ids ss (inject_Z (Z.of_nat count)) 0 target false in
      let* dup := same_as_any p generated in
      if (dup : bool) then Ok (generated, S failed, k2)
      else
        let* rc := get_reduced_cost n_rows leaves splits dl p flags in
        Ok (if Qltb teps rc then (generated ++ [p], failed, k2) else (generated, S failed, k2))
  end.
Fixpoint heur_rounds (n : nat) (body : list path * nat * nat -> res (list path * nat * nat)) (st : list path * nat * nat)
  : res (list path * nat * nat) :=
  match n with O => Ok st | S n' => let* st1 := body st in heur_rounds n' body st1 end.
(** generate_columns, lines 1936-2023. *)
Definition heur_generate (rand : nat -> nat) (order : list nat -> list nat) (n_rows : nat) (y : list nat)
    (rows : option (list row)) (leaves : list leaf) (nodes : list node) (splits : list split) (dl : tduals) (h : heuristic)
  : res (list path * heuristic) :=
  let* (generated, failed, _) :=
    heur_rounds 100 (heur_round rand order n_rows y rows leaves nodes splits dl) ([], h_failed h, 0) in
  Ok (generated, mkHeur (h_cuts h) failed (h_success h + length generated)).

(** update_subproblem, lines 2025-2032.  The split objects are shared with the master problem. *)
Definition heur_update (dl : tduals) (h : heuristic) (splits : list split) : res (heuristic * list split) :=
  let* splits1 := for_each (combine (seq (h_cuts h) (length (d_new_cuts dl))) (d_new_cuts dl))
    (fun kc splits => store_cut (fst kc) (snd kc) splits) splits in
  Ok (mkHeur (h_cuts h + length (d_new_cuts dl)) (h_failed h) (h_success h), splits1).

(** * The pricing models *)

(** Which class: DTreeSubProblem, DTreeSubProblemSat, DTreeSubProblemOld for one target. *)
Inductive pclass := CMip | CSat | COld (target : nat).
Definition is_sat (c : pclass) : bool := match c with CSat => true | _ => false end.

(** Attributes, lines 1175-1185, 1602-1611 and 2079-2088 (and u_vars_, w_vars_, y_vars_ assigned later).  [pr_orig] is
    orig_obj_coeffs (CSat only). *)
Record pricing := mkPr {
  pr_generated : bool;
  pr_lp : lp;                            (* solver_ / model_ *)
  pr_z : list (option nat);              (* z_vars_ *)
  pr_y : list (option nat);              (* y_vars_ *)
  pr_yc : list nat;                      (* yc_vars_ *)
  pr_u : list (key2 * nat);              (* u_vars_ *)
  pr_w : list nat;                       (* w_vars_ *)
  pr_start : nat;                        (* cut_rows_starting_index *)
  pr_orig : nat -> Q
}.
Definition pricing_init : pricing := mkPr false empty_lp [] [] [] [] [] 0 (fun _ => 0%Q).

(** [int(round(value * 100000))], lines 1613-1614; round() rounds halves to even. *)
Definition py_round (q : Q) : Z :=
  let f := Qfloor q in
  let r := (q - inject_Z f)%Q in
  if Qltb r (1 # 2) then f else if Qltb (1 # 2) r then (f + 1)%Z else if Z.even f then f else (f + 1)%Z.
Definition scale_obj_coeff (q : Q) : Z := py_round (q * inject_Z 100000).

(** Setting the objective coefficient of a variable: SetCoefficient; CSat remembers the coefficient and uses the scaled one. *)
Definition objective := (lp * (nat -> Q))%type.
Definition put (c : pclass) (v : nat) (q : Q) (mo : objective) : objective :=
  if is_sat c then (set_obj v (inject_Z (scale_obj_coeff q)) (fst mo), upd (snd mo) v q)
  else (set_obj v q (fst mo), snd mo).
Definition bool_var (m : lp) : nat * lp := new_var (Some 0%Q) (Some 1%Q) true m.
(** A constraint with the given (variable, coefficient) terms: SetCoefficient overwrites, CP-SAT expressions add up. *)
Definition last_coef (terms : list (nat * Q)) : nat -> Q := fold_left (fun f t => upd f (fst t) (snd t)) terms (fun _ => 0%Q).
Definition sum_coef (terms : list (nat * Q)) (v : nat) : Q := qsum (fun t => if fst t =? v then snd t else 0%Q) terms.
Definition add_con (c : pclass) (lb ub : option Q) (terms : list (nat * Q)) (m : lp) : lp :=
  mkLp (lp_vars m) (lp_obj m) (lp_off m) (lp_max m)
       (lp_cons m ++ [mkCon lb ub (if is_sat c then sum_coef terms else last_coef terms)]).

(** Lines 1198-1213 / 1634-1655 / 2102-2117: z and y variables of the rows with their coefficients (COld: only y). *)
Definition row_vars (c : pclass) (y : list nat) (rows : option (list row)) (row_duals : list Q) (i : nat)
    (st : objective * list (option nat) * list (option nat)) : res (objective * list (option nat) * list (option nat)) :=
  let '((m, o), zs, ys) := st in
  let* w := weigh rows i in
  match w with
  | None => Ok ((m, o), zs ++ [None], ys ++ [None])
  | Some w =>
      match c with
      | COld target =>
          let '(v, m1) := bool_var m in
          let* q := getitem row_duals i in
          let* t := getitem y i in
          Ok (put c v (if t =? target then 1 - q else - q)%Q (m1, o), zs ++ [None], ys ++ [Some v])
      | _ =>
          let '(z, m1) := bool_var m in
          let '(m2, o2) := put c z (inject_Z (Z.of_nat w)) (m1, o) in
          let '(v, m3) := bool_var m2 in
          let* q := getitem row_duals i in
          Ok (put c v (- q)%Q (m3, o2), zs ++ [Some z], ys ++ [Some v])
      end
  end.

(** Lines 1215-1222 / 1657-1667 / 2119-2126: the cut variables. *)
Definition cut_var (c : pclass) (cut_duals : list Q) (i : nat) (st : objective * list nat) : res (objective * list nat) :=
  let '((m, o), ycs) := st in
  let '(v, m1) := bool_var m in
  let* q := getitem cut_duals i in
  Ok (put c v (- q)%Q (m1, o), ycs ++ [v]).

(** Lines 1227-1240 / 1672-1688 / 2131-2144: the (node, split) variables. *)
Definition split_vars (c : pclass) (leaf_id : nat) (nodes : list node) (ns : list (key3 * Q)) (id : nat)
    (st : objective * list (key2 * nat)) : res (objective * list (key2 * nat)) :=
  let* nd := getitem nodes id in
  for_each (n_cands nd)
    (fun k st =>
       let '((m, o), us) := st in
       let '(v, m1) := bool_var m in
       let* q := lookup key3_eqb ns (leaf_id, n_id nd, k) in
       Ok (put c v (- q)%Q (m1, o), assoc_set key2_eqb us (n_id nd, k) v)) st.

(** Lines 1247-1253 / 1697-1703 / 2151-2157: one split per node. *)
Definition node_con (c : pclass) (nodes : list node) (us : list (key2 * nat)) (id : nat) (m : lp) : res lp :=
  let* nd := getitem nodes id in
  let* terms := map_res (fun k => let* v := lookup key2_eqb us (n_id nd, k) in Ok (v, 1%Q)) (n_cands nd) in
  Ok (add_con c (Some 1%Q) (Some 1%Q) terms m).

(** Lines 1268-1298 (add_cut_rows: 1379-1408 and the like): the constraints that define the variable [v] of a (real or
    artificial) row which goes left at split [k] iff [goes k].  The code sets the coefficients of two constraints at a time;
    here the variables of each node's matching splits are collected first. *)
Definition matching (lf : leaf) (goes : nat -> res bool) (us : list (key2 * nat)) (nd : node) : res (list nat) :=
  if memb (n_id nd) (l_left lf) then
    for_each (n_cands nd) (fun k acc => let* b := goes k in
                             if (b : bool) then let* v := lookup key2_eqb us (n_id nd, k) in Ok (acc ++ [v]) else Ok acc) []
  else if memb (n_id nd) (l_right lf) then
    for_each (n_cands nd) (fun k acc => let* b := goes k in
                             if (b : bool) then Ok acc else let* v := lookup key2_eqb us (n_id nd, k) in Ok (acc ++ [v])) []
  else Ok [].
Definition branch_cons (c : pclass) (depth : nat) (lf : leaf) (nodes : list node) (goes : nat -> res bool)
    (us : list (key2 * nat)) (v : nat) (m : lp) : res lp :=
  let* groups := map_res (fun id => let* nd := getitem nodes id in matching lf goes us nd) (l_left lf ++ l_right lf) in
  let reach m := add_con c None (Some (inject_Z (Z.of_nat depth - 1))) ((v, (-1)%Q) :: map (fun u => (u, 1%Q)) (concat groups)) m in
  let per_node m := fold_left (fun m g => add_con c None (Some 0%Q) ((v, 1%Q) :: map (fun u => (u, (-1)%Q)) g) m) groups m in
  Ok (if is_sat c then reach (per_node m) else per_node (reach m)).

(** row_satisfies_split, lines 1491-1499. *)
Definition row_satisfies_split (X : list sample) (i : nat) (s : split) : res bool :=
  let* x := getitem X i in let* v := getitem x (s_feature s) in Ok (Qle_bool v (s_threshold s)).
Definition row_goes (X : list sample) (splits : list split) (i k : nat) : res bool :=
  let* s := getitem splits k in row_satisfies_split X i s.

(** Lines 1268-1298 / 1717-1743 / 2171-2201 for row [i]. *)
Definition row_con (c : pclass) (depth : nat) (lf : leaf) (nodes : list node) (splits : list split) (X : list sample)
    (rows : option (list row)) (ys : list (option nat)) (us : list (key2 * nat)) (i : nat) (m : lp) : res lp :=
  let* w := weigh rows i in
  match w with
  | None => Ok m
  | Some _ =>
      let* o := getitem ys i in
      match o with
      | None => Err TypeError
      | Some v => branch_cons c depth lf nodes (row_goes X splits i) us v m
      end
  end.

(** Lines 1302-1308 / 1747-1753: class variables; at most one class (CSat: exactly one). *)
Definition class_vars (c : pclass) (n_targets : nat) (m : lp) : lp * list nat :=
  let '(m1, ws) := fold_left (fun st _ => let '(v, m1) := bool_var (fst st) in (m1, snd st ++ [v])) (seq 0 n_targets) (m, []) in
  (add_con c (Some (if is_sat c then 1 else 0)%Q) (Some 1%Q) (map (fun w => (w, 1%Q)) ws) m1, ws).
(** Lines 1310-1328 / 1756-1765: z <= y and z <= w of the row's class. *)
Definition class_con (c : pclass) (y : list nat) (rows : option (list row)) (zs ys : list (option nat)) (ws : list nat)
    (i : nat) (m : lp) : res lp :=
  let* w := weigh rows i in
  match w with
  | None => Ok m
  | Some _ =>
      let* oz := getitem zs i in
      let* oy := getitem ys i in
      match oz, oy with
      | Some z, Some v =>
          let* t := getitem y i in
          let* wv := getitem ws t in
          Ok (add_con c None (Some 0%Q) [(z, 1%Q); (wv, (-1)%Q)] (add_con c None (Some 0%Q) [(z, 1%Q); (v, (-1)%Q)] m))
      | _, _ => Err TypeError
      end
  end.

Section Subproblem.
(** Constructor arguments, lines 1169-1178, 1594-1602 and 2073-2082. *)
Variables (c : pclass) (lf : leaf) (nodes : list node) (splits : list split) (targets : list Z) (depth : nat)
          (rows : option (list row)).

(** create_submip, lines 1187-1330 / 1616-1767 / 2090-2203. *)
Definition create_submip (X : list sample) (y : list nat) (leaf_dual : Q) (dl : tduals) (pr : pricing) : res pricing :=
  let* _ := assert (negb (pr_generated pr)) in
  let ids := l_left lf ++ l_right lf in
  let n_rows := length X in
  let* (mo1, zs, ys) := for_each (seq 0 n_rows) (row_vars c y rows (d_row dl)) ((pr_lp pr, pr_orig pr), [], []) in
  let* (mo2, ycs) := for_each (seq 0 (length (d_cut dl))) (cut_var c (d_cut dl)) (mo1, []) in
  let* ((m3, o3), us) := for_each ids (split_vars c (l_id lf) nodes (d_ns dl)) (mo2, []) in
  let m4 := set_dir true (set_offset (- leaf_dual)%Q m3) in
  let* m5 := for_each ids (node_con c nodes us) m4 in
  let* m6 := for_each (seq 0 n_rows) (row_con c depth lf nodes splits X rows ys us) m5 in
  match c with
  | COld _ => Ok (mkPr true m6 zs ys ycs us [] (pr_start pr) o3)
  | _ =>
      let '(m7, ws) := class_vars c (length targets) m6 in
      let* m8 := for_each (seq 0 n_rows) (class_con c y rows zs ys ws) m7 in
      Ok (mkPr true m8 zs ys ycs us ws (pr_start pr) o3)
  end.

(** Lines 1336-1350 / 1779-1802 / 2209-2224: new coefficients of the row variables. *)
Definition update_row_coeffs (y : list nat) (row_duals : list Q) (zs ys : list (option nat)) (i : nat) (mo : objective)
  : res objective :=
  let* w := weigh rows i in
  match w with
  | None => Ok mo
  | Some w =>
      match c with
      | COld target =>
          let* oy := getitem ys i in
          let* q := getitem row_duals i in
          let* t := getitem y i in
          match oy with Some v => Ok (put c v (if t =? target then 1 - q else - q)%Q mo) | None => Err TypeError end
      | _ =>
          let* oz := getitem zs i in
          let* oy := getitem ys i in
          let* q := getitem row_duals i in
          match oz, oy with
          | Some z, Some v => Ok (put c v (- q)%Q (put c z (inject_Z (Z.of_nat w)) mo))
          | _, _ => Err TypeError
          end
      end
  end.
(** Lines 1352-1363 / 1804-1818 / 2226-2237: new coefficients of the cut variables; variables for new cuts. *)
Definition update_cut_coeff (existing : nat) (cut_duals : list Q) (i : nat) (st : objective * list nat)
  : res (objective * list nat) :=
  let '((m, o), ycs) := st in
  if existing <=? i then
    let '(v, m1) := bool_var m in
    let* q := getitem cut_duals i in Ok (put c v (- q)%Q (m1, o), ycs ++ [v])
  else
    let* v := getitem ycs i in
    let* q := getitem cut_duals i in Ok (put c v (- q)%Q (m, o), ycs).
(** Lines 1365-1371 / 1822-1833 / 2239-2245. *)
Definition update_split_coeffs (us : list (key2 * nat)) (ns : list (key3 * Q)) (id : nat) (mo : objective) : res objective :=
  let* nd := getitem nodes id in
  for_each (n_cands nd)
    (fun k mo => let* v := lookup key2_eqb us (n_id nd, k) in
                 let* q := lookup key3_eqb ns (l_id lf, n_id nd, k) in
                 Ok (put c v (- q)%Q mo)) mo.
(** update_objective, lines 1332-1375 / 1769-1838 / 2205-2249.  CSat builds a new objective expression. *)
Definition update_objective (X : list sample) (y : list nat) (leaf_dual : Q) (dl : tduals) (pr : pricing) : res pricing :=
  let* _ := (if is_sat c then assert (pr_generated pr) else Ok tt) in
  let m := pr_lp pr in
  let m0 := if is_sat c then mkLp (lp_vars m) (fun _ => 0%Q) (lp_off m) (lp_max m) (lp_cons m) else m in
  let* mo1 := for_each (seq 0 (length X)) (update_row_coeffs y (d_row dl) (pr_z pr) (pr_y pr)) (m0, pr_orig pr) in
  let* (mo2, ycs) := for_each (seq 0 (length (d_cut dl))) (update_cut_coeff (length (pr_yc pr)) (d_cut dl)) (mo1, pr_yc pr) in
  let* (m3, o3) := for_each (l_left lf ++ l_right lf) (update_split_coeffs (pr_u pr) (d_ns dl)) mo2 in
  Ok (mkPr (pr_generated pr) (set_dir true (set_offset (- leaf_dual)%Q m3)) (pr_z pr) (pr_y pr) ycs (pr_u pr) (pr_w pr)
           (pr_start pr) o3).

(** add_cut_rows, lines 1377-1409 / 1840-1866 / 2251-2283. *)
Definition add_cut_rows (cut_rows : list (list bool)) (pr : pricing) : res pricing :=
  let* _ := assert (pr_generated pr) in
  let* m := for_each (combine (seq (pr_start pr) (length cut_rows)) cut_rows)
    (fun iz m => let* v := getitem (pr_yc pr) (fst iz) in
                 branch_cons c depth lf nodes (getitem (snd iz)) (pr_u pr) v m) (pr_lp pr) in
  Ok (mkPr (pr_generated pr) m (pr_z pr) (pr_y pr) (pr_yc pr) (pr_u pr) (pr_w pr) (pr_start pr + length cut_rows) (pr_orig pr)).

(** Lines 1483-1486 / 1878-1881 / 2351-2354. *)
Definition refresh (X : list sample) (y : list nat) (dl : tduals) (pr : pricing) : res pricing :=
  let* leaf_dual := getitem (d_leaf dl) (l_id lf) in
  if pr_generated pr then update_objective X y leaf_dual dl pr else create_submip X y leaf_dual dl pr.
(** update_subproblem, lines 1474-1489 / 1868-1884 / 2342-2357. *)
Definition update_subproblem (X : list sample) (y : list nat) (dl : tduals) (pr : pricing) : res pricing :=
  if is_sat c && (length (d_new_cuts dl) =? 0) then Ok pr
  else
    let* pr1 := refresh X y dl pr in
    if 0 <? length (d_new_cuts dl) then add_cut_rows (d_new_cuts dl) pr1 else Ok pr1.

(** Lines 1447-1451 and 1573-1577: the first candidate split whose variable is set. *)
Fixpoint chosen_split (us : list (key2 * nat)) (x : nat -> Q) (n : nat) (cands : list nat) : res (list nat) :=
  match cands with
  | [] => Ok []
  | k :: cands' =>
      let* v := lookup key2_eqb us (n, k) in
      if Qltb (1 # 2) (x v) then Ok [k] else chosen_split us x n cands'
  end.
(** Lines 1452-1456 and 1578-1582: the first class whose variable is set (-1 if none). *)
Fixpoint chosen_target (ws : list nat) (x : nat -> Q) (ts : list Z) : res Z :=
  match ts with
  | [] => Ok (-1)%Z
  | t :: ts' => let* v := getitemZ ws t in if Qltb (1 # 2) (x v) then Ok t else chosen_target ws x ts'
  end.
(** Lines 1443-1451: nodes in the order of [nodes]. *)
Definition chosen_choices (us : list (key2 * nat)) (x : nat -> Q) (nds : list node) : res (list nat * list nat) :=
  for_each nds (fun nd st => let* ks := chosen_split us x (n_id nd) (n_cands nd) in
                             Ok (fst st ++ [n_id nd], snd st ++ ks)) ([], []).
(** Lines 1457-1469 / 2328-2339: the cost of the decoded path. *)
Definition decoded_cost (n_rows : nat) (y : list nat) (zs ys : list (option nat)) (x : nat -> Q) : res Q :=
  for_each (seq 0 n_rows)
    (fun i acc =>
       let* w := weigh rows i in
       match w with
       | None => Ok acc
       | Some w =>
           match c with
           | COld target =>
               let* o := getitem ys i in
               let* t := getitem y i in
               match o with Some v => Ok (if t =? target then acc + 1 * x v else acc)%Q | None => Err TypeError end
           | _ => let* o := getitem zs i in
                  match o with Some v => Ok (acc + inject_Z (Z.of_nat w) * x v)%Q | None => Err TypeError end
           end
       end) 0%Q.
(** generate_columns of DTreeSubProblem and DTreeSubProblemOld, lines 1411-1472 / 2285-2340.  [solver] returns a solution
    unless the status is neither OPTIMAL nor FEASIBLE. *)
Definition mip_generate (solver : lp -> option (nat -> Q)) (n_rows : nat) (y : list nat) (pr : pricing) : res (list path) :=
  match solver (pr_lp pr) with
  | None => Ok []
  | Some x =>
      if Qle_bool (objective_value (pr_lp pr) x) teps then Ok []
      else
        let ids := l_left lf ++ l_right lf in
        let* (ns, ks) := chosen_choices (pr_u pr) x (filter (fun nd => memb (n_id nd) ids) nodes) in
        let* target := match c with COld t => Ok (Z.of_nat t) | _ => chosen_target (pr_w pr) x targets end in
        let* cost := decoded_cost n_rows y (pr_z pr) (pr_y pr) x in
        Ok [mkPath (l_id lf) ns ks cost 0 target false]
  end.

(** PathGenerator.on_solution_callback, lines 1529-1587. *)
Definition var_sum (orig x : nat -> Q) (vs : list (option nat)) : Q :=
  qsum (fun o => match o with Some v => (orig v * x v)%Q | None => 0%Q end) vs.
Definition original_objective (leaf_dual : Q) (x : nat -> Q) (pr : pricing) : res Q :=
  let path_cost := var_sum (pr_orig pr) x (pr_z pr) in
  let part := (path_cost + var_sum (pr_orig pr) x (pr_y pr) + qsum (fun v => pr_orig pr v * x v) (pr_yc pr))%Q in
  let* total := for_each (l_left lf ++ l_right lf)
    (fun id acc =>
       let* nd := getitem nodes id in
       for_each (n_cands nd) (fun k acc => let* v := lookup key2_eqb (pr_u pr) (n_id nd, k) in
                                           Ok (acc + pr_orig pr v * x v)%Q) acc) part in
  Ok (total - leaf_dual)%Q.
Definition on_solution (leaf_dual : Q) (pr : pricing) (x : nat -> Q) (paths : list path) : res (list path) :=
  let* obj := original_objective leaf_dual x pr in
  if Qle_bool obj teps then Ok paths
  else
    let* nds := map_res (getitem nodes) (l_left lf ++ l_right lf) in
    let* (ns, ks) := chosen_choices (pr_u pr) x nds in
    let* target := chosen_target (pr_w pr) x targets in
    Ok (paths ++ [mkPath (l_id lf) ns ks (var_sum (pr_orig pr) x (pr_z pr)) 0 target false]).

(** generate_columns of DTreeSubProblemSat, lines 1896-1918.  [solver] gives, for the chosen settings and the model, the
    solver's answer and the solutions it reports to the callback, in order. *)
Definition sat_generate (rs : streams) (solver : settings -> lp -> answer * list (nat -> Q)) (X : list sample) (y : list nat)
    (dl : tduals) (sub : subproblem) (pr : pricing) : res (list path * (subproblem * pricing)) :=
  let* pr1 := refresh X y dl pr in
  let* leaf_dual := getitem (d_leaf dl) (l_id lf) in
  let '(sub1, r) := solve_model rs (fun st => fst (solver st (pr_lp pr1))) 2 sub in
  let* st := r in
  let* paths := for_each (snd (solver st (pr_lp pr1))) (on_solution leaf_dual pr1) [] in
  Ok (paths, (sub1, pr1)).
End Subproblem.

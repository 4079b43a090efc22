(** Model of the objects, the master problem and the classifier of col_gen_estimator/_dtree_classifier.py (definitions
    only; line numbers refer to that file).

    Simplifications: ids and indices are natural numbers (the placeholder id -1 of a fresh object is not represented; it is
    overwritten before use), numbers are exact rationals, a Python set is a duplicate-free list, a Python dict is an
    association list in insertion order.  Printing, solver parameters, cut timing and statistics are not modelled.  An
    exception aborts the call; the half-updated object is not kept. *)
From Coq Require Import Qround.
From Verif Require Import Base Lp.
Open Scope nat_scope.

Definition sample := list Q.

(** Row, lines 159-171. *)
Record row := mkRow {
  r_nodes : list nat;            (* reachable_nodes *)
  r_paths : list nat;            (* reachable_paths *)
  r_leaves : list nat;           (* reachable_leaves *)
  r_left : list nat;             (* left_splits *)
  r_right : list nat;            (* right_splits *)
  r_gone : bool;                 (* removed_from_master *)
  r_gone_sp : bool;              (* removed_from_sp *)
  r_weight : nat                 (* weight *)
}.
Definition new_row : row := mkRow [] [] [] [] [] false false 1.

(** Path, lines 188-195. *)
Record path := mkPath {
  p_leaf : nat;
  p_nodes : list nat;
  p_splits : list nat;
  p_cost : Q;
  p_id : nat;
  p_target : Z;
  p_initial : bool
}.

(** Node, lines 280-290.  A parent of [None] is -1 in the code. *)
Record node := mkNode {
  n_id : nat;
  n_cands : list nat;            (* candidate_splits *)
  n_parent : option nat;
  n_lchild : nat;
  n_rchild : nat;
  n_bottom : bool                (* children_are_leaves *)
}.

(** Leaf, lines 305-308. *)
Record leaf := mkLeaf { l_id : nat; l_left : list nat; l_right : list nat }.

(** Split, lines 353-362. *)
Record split := mkSplit {
  s_id : nat;
  s_feature : nat;
  s_threshold : Q;
  s_removed : bool;
  s_lrows : list nat;            (* left_rows *)
  s_rrows : list nat;            (* right_rows *)
  s_lcuts : list nat;            (* left_cuts *)
  s_rcuts : list nat             (* right_cuts *)
}.

(** * Paths, leaves and samples *)

(** Path.is_same_as, lines 197-228.  Inner loop: lines 220-224, outer loop: lines 217-226. *)
Fixpoint same_inner (node_id split_id : nat) (q : path) (js : list nat) : res bool :=
  match js with
  | [] => Ok false
  | j :: js' =>
      let* n := getitem (p_nodes q) j in
      if n =? node_id then
        let* s := getitem (p_splits q) j in
        if s =? split_id then Ok true else same_inner node_id split_id q js'
      else same_inner node_id split_id q js'
  end.
Fixpoint same_outer (p q : path) (is : list nat) : res bool :=
  match is with
  | [] => Ok true
  | i :: is' =>
      let* n := getitem (p_nodes p) i in
      let* s := getitem (p_splits p) i in
      let* found := same_inner n s q (seq 0 (length (p_nodes q))) in
      if (found : bool) then same_outer p q is' else Ok false
  end.
Definition is_same_as (p q : path) : res bool :=
  if negb (p_leaf p =? p_leaf q) then Ok false
  else if negb (p_target p =? p_target q)%Z then Ok false
  else if negb (Qeq_bool (p_cost p) (p_cost q)) then Ok false
  else if negb (length (p_nodes p) =? length (p_nodes q)) then Ok false
  else same_outer p q (seq 0 (length (p_nodes p))).

(** Path.set_leaf, lines 241-257.  The loop of lines 254-257 decreases [count], so [count] steps are enough. *)
Fixpoint set_leaf_loop (fuel count : nat) (ids : list nat) : list nat :=
  match fuel with
  | O => ids
  | S fuel' =>
      if 0 <? count then let father := (count - 1) / 2 in set_leaf_loop fuel' father (ids ++ [father]) else ids
  end.
Definition set_leaf (leaf_id depth : nat) (p : path) : path :=
  let count := 2 ^ depth - 1 + leaf_id in
  mkPath leaf_id (set_leaf_loop count count []) (p_splits p) (p_cost p) (p_id p) (p_target p) (p_initial p).

(** Leaf.create_leaf, lines 310-329. *)
Fixpoint create_leaf_loop (fuel count : nat) (ls rs : list nat) : list nat * list nat :=
  match fuel with
  | O => (ls, rs)
  | S fuel' =>
      if 0 <? count then
        let father := (count - 1) / 2 in
        if count mod 2 =? 0 then create_leaf_loop fuel' father ls (rs ++ [father])
        else create_leaf_loop fuel' father (ls ++ [father]) rs
      else (ls, rs)
  end.
Definition create_leaf (id depth : nat) : leaf :=
  let count := 2 ^ depth - 1 + id in
  let '(ls, rs) := create_leaf_loop count count [] [] in mkLeaf id ls rs.

(** get_satisfied_rows, lines 365-393, and get_satisfied_cuts, lines 396-424: the same code on different sets of a split. *)
Definition get_satisfied (left right : split -> list nat) (p : path) (lf : leaf) (splits : list split) : res (list nat) :=
  let branch n s := if memb n (l_left lf) then left s else right s in
  let* i0 := getitem (p_splits p) 0 in
  let* s0 := getitem splits i0 in
  let* n0 := getitem (p_nodes p) 0 in
  for_each (seq 1 (length (p_nodes p) - 1))
    (fun i acc =>
       let* k := getitem (p_splits p) i in
       let* s := getitem splits k in
       let* n := getitem (p_nodes p) i in
       Ok (set_inter acc (branch n s))) (branch n0 s0).
Definition get_satisfied_rows := get_satisfied s_lrows s_rrows.
Definition get_satisfied_cuts := get_satisfied s_lcuts s_rcuts.

(** row_satisfies_path, lines 427-452. *)
Fixpoint row_satisfies_loop (x : sample) (lf : leaf) (splits : list split) (p : path) (is : list nat) : res bool :=
  match is with
  | [] => Ok true
  | i :: is' =>
      let* k := getitem (p_splits p) i in
      let* s := getitem splits k in
      let* n := getitem (p_nodes p) i in
      let* v := getitem x (s_feature s) in
      if memb n (l_left lf) then
        if Qltb (s_threshold s) v then Ok false else row_satisfies_loop x lf splits p is'
      else
        if Qle_bool v (s_threshold s) then Ok false else row_satisfies_loop x lf splits p is'
  end.
Definition row_satisfies_path (x : sample) (lf : leaf) (splits : list split) (p : path) : res bool :=
  row_satisfies_loop x lf splits p (seq 0 (length (p_nodes p))).

(** * The CP-SAT model for cut generation *)

(** Boolean variables z_i, one per split, and p_i, one per path; each path has a list of literals (split, polarity) with
    p_i <=> conjunction of the literals; implications z_i => z_j. *)
Record cutmodel := mkCut {
  cm_splits : nat;
  cm_paths : list (list (nat * bool));
  cm_imps : list (nat * nat)
}.

Definition lit_holds (z : nat -> bool) (l : nat * bool) : bool := if snd l then z (fst l) else negb (z (fst l)).
(** Meaning: the assignments (p, z) a correct CP-SAT solver may report as solutions. *)
Definition cut_solution (cm : cutmodel) (pz : (nat -> bool) * (nat -> bool)) : Prop :=
  (forall i lits, nth_error (cm_paths cm) i = Some lits -> fst pz i = forallb (lit_holds (snd pz)) lits) /\
  (forall i j, In (i, j) (cm_imps cm) -> snd pz i = true -> snd pz j = true).

(** Lines 579-588 and 907-916: the literals of a path. *)
Definition path_literals (n_splits : nat) (lf : leaf) (p : path) : res (list (nat * bool)) :=
  map_res (fun j => let* k := getitem (p_splits p) j in
                    let* n := getitem (p_nodes p) j in
                    if k <? n_splits then Ok (k, memb n (l_left lf)) else Err IndexError)
          (seq 0 (length (p_nodes p))).

(** Lines 602-618: implications between splits on the same feature. *)
Definition split_implications (splits : list split) : res (list (nat * nat)) :=
  for_each (seq 0 (length splits))
    (fun i acc =>
       let* si := getitem splits i in
       for_each (seq (i + 1) (length splits - (i + 1)))
         (fun j acc =>
            let* sj := getitem splits j in
            if negb (s_feature si =? s_feature sj) then Ok acc
            else
              let* _ := assert (negb (Qeq_bool (s_threshold si) (s_threshold sj))) in
              if Qltb (s_threshold si) (s_threshold sj) then Ok (acc ++ [(i, j)]) else Ok (acc ++ [(j, i)])) acc) [].

(** create_cut_gen_model, lines 566-618. *)
Definition create_cut_gen_model (paths : list path) (leaves : list leaf) (splits : list split) : res cutmodel :=
  let n := length splits in
  let* ps := map_res (fun p => let* lf := getitem leaves (p_leaf p) in path_literals n lf p) paths in
  let* imps := split_implications splits in
  Ok (mkCut n ps imps).

(** * Rows *)

(** Lines 739-750: node relations; [depth] is [int(math.log2(n_leaves))]. *)
Definition preprocess_node (depth : nat) (n : node) : node :=
  let parent := if n_id n =? 0 then None else Some ((n_id n - 1) / 2) in
  let lc := 2 * n_id n + 1 in
  let rc := 2 * n_id n + 2 in
  if 2 ^ depth - 1 <=? lc then
    mkNode (n_id n) (n_cands n) parent (lc - (2 ^ depth - 1)) (rc - (2 ^ depth - 1)) true
  else mkNode (n_id n) (n_cands n) parent lc rc (n_bottom n).

(** Lines 766-772: the splits a row satisfies and does not satisfy. *)
Definition row_splits (x : sample) (splits : list split) : res (list nat * list nat) :=
  for_each splits
    (fun s lr =>
       let* v := getitem x (s_feature s) in
       Ok (if Qle_bool v (s_threshold s) then (set_add (s_id s) (fst lr), snd lr)
           else (fst lr, set_add (s_id s) (snd lr)))) ([], []).

(** Lines 774-791: reachable nodes and leaves, for a row with left_splits [left]. *)
Definition reach_step (left : list nat) (n : node) (nl : list nat * list nat) : list nat * list nat :=
  match n_parent n, memb (n_id n) (fst nl) with
  | Some _, false => nl
  | _, _ =>
      fold_left
        (fun nl s =>
           let child := if memb s left then n_lchild n else n_rchild n in
           if n_bottom n then (fst nl, set_add child (snd nl)) else (set_add child (fst nl), snd nl))
        (n_cands n) (set_add (n_id n) (fst nl), snd nl)
  end.
Definition reach (left : list nat) (nodes : list node) : list nat * list nat :=
  fold_left (fun nl n => reach_step left n nl) nodes ([], []).

(** Lines 805-808 and 728-732: the paths a row follows, added to a set. *)
Definition satisfied_paths (x : sample) (leaves : list leaf) (splits : list split) (paths : list path) (ids : list nat)
  : res (list nat) :=
  for_each paths
    (fun p ids =>
       let* lf := getitem leaves (p_leaf p) in
       let* b := row_satisfies_path x lf splits p in
       Ok (if (b : bool) then set_add (p_id p) ids else ids)) ids.

(** Lines 765-810: one row. *)
Definition preprocess_row (leaves : list leaf) (nodes : list node) (splits : list split) (paths : list path) (x : sample)
  : res row :=
  let* (ls, rs) := row_splits x splits in
  let '(rn, rl) := reach ls nodes in
  let* ids := satisfied_paths x leaves splits paths [] in
  Ok (mkRow rn ids rl ls rs (length rl <=? 2) false 1).

(** Lines 816-848: the quadratic loop of the aggressive mode (not used by generate_mp). *)
Definition same_set (a b : list nat) : bool := forallb (fun x => memb x b) a && forallb (fun x => memb x a) b.
Definition rows_match (nodes : list node) (a b : row) : res bool :=
  if negb (same_set (r_nodes a) (r_nodes b)) then Ok false
  else
    let* valid := for_each (r_nodes a)
      (fun i acc => let* n := getitem nodes i in Ok (fold_left (fun acc s => set_add s acc) (n_cands n) acc)) [] in
    Ok (forallb (fun s => Bool.eqb (memb s (r_left a)) (memb s (r_left b))) valid).
Definition gone (r : row) : row :=
  mkRow (r_nodes r) (r_paths r) (r_leaves r) (r_left r) (r_right r) true (r_gone_sp r) (r_weight r).
Definition aggressive_loop (nodes : list node) (rows : list row) : res (list row) :=
  for_each (seq 0 (length rows))
    (fun i rows =>
       let* a := getitem rows i in
       if r_gone a then Ok rows
       else for_each (seq (i + 1) (length rows - (i + 1)))
              (fun j rows =>
                 let* b := getitem rows j in
                 if r_gone b then Ok rows
                 else let* m := rows_match nodes a b in
                      Ok (if (m : bool) then set_nth rows j (gone b) else rows)) rows) rows.

(** preprocess_rows, lines 734-850.  No leaves: math.log2 raises ValueError; no rows: line 813 divides by zero. *)
Definition preprocess_rows (aggressive : bool) (X : list sample) (leaves : list leaf) (nodes : list node)
    (splits : list split) (paths : list path) : res (list node * list row) :=
  if length leaves =? 0 then Err ValueError
  else
    let depth := Nat.log2 (length leaves) in
    let nodes1 := map (preprocess_node depth) nodes in
    let* rows := map_res (preprocess_row leaves nodes1 splits paths) X in
    if length X =? 0 then Err ZeroDivisionError
    else if aggressive then let* rows1 := aggressive_loop nodes1 rows in Ok (nodes1, rows1)
    else Ok (nodes1, rows).

(** compute_satisfied_paths, lines 727-732. *)
Definition with_paths (r : row) (ids : list nat) : row :=
  mkRow (r_nodes r) ids (r_leaves r) (r_left r) (r_right r) (r_gone r) (r_gone_sp r) (r_weight r).
Definition compute_satisfied_paths (X : list sample) (leaves : list leaf) (splits : list split) (paths : list path)
    (rows : list row) : res (list row) :=
  map_res (fun i => let* r := getitem rows i in
                    let* x := (if length paths =? 0 then Ok [] else getitem X i) in
                    let* ids := satisfied_paths x leaves splits paths (r_paths r) in
                    Ok (with_paths r ids)) (seq 0 (length rows)).

(** * The master problem *)

(** Python dictionaries with pairs and triples of ids as keys. *)
Definition key2 := (nat * nat)%type.
Definition key3 := (nat * nat * nat)%type.
Definition key2_eqb (a b : key2) : bool := (fst a =? fst b) && (snd a =? snd b).
Definition key3_eqb (a b : key3) : bool := key2_eqb (fst a) (fst b) && (snd a =? snd b).
Fixpoint assoc {K A} (eqb : K -> K -> bool) (d : list (K * A)) (k : K) : option A :=
  match d with
  | [] => None
  | (k', a) :: d' => if eqb k' k then Some a else assoc eqb d' k
  end.
Fixpoint assoc_set {K A} (eqb : K -> K -> bool) (d : list (K * A)) (k : K) (a : A) : list (K * A) :=
  match d with
  | [] => [(k, a)]
  | (k', a') :: d' => if eqb k' k then (k', a) :: d' else (k', a') :: assoc_set eqb d' k a
  end.
Definition lookup {K A} (eqb : K -> K -> bool) (d : list (K * A)) (k : K) : res A :=
  match assoc eqb d k with Some a => Ok a | None => Err KeyError end.

(** An OPTIMAL answer of the LP solver: solution values and constraint duals. *)
Definition lp_answer := ((nat -> Q) * (nat -> Q))%type.

(** Attributes of DTreeMasterProblem, lines 545-564, 626-717, 721-725, 1028-1032 and 1148.  ns_constraints_ (nested
    dictionaries) has keys (leaf, node, split).  [tm_answer] is the solver's last status and solution ([None]: not OPTIMAL);
    [tm_calls] counts external solver calls (not in the code). *)
Record tmaster := mkTm {
  tm_generated : bool;
  tm_X : list sample;
  tm_y : list nat;
  tm_lp : lp;                                   (* solver_ *)
  tm_cutmodel : cutmodel;                       (* cut_gen_model_ *)
  tm_paths : list path;                         (* paths_ *)
  tm_path_vars : list nat;                      (* path_vars_ *)
  tm_leaves : list leaf;
  tm_nodes : list node;
  tm_splits : list split;
  tm_rows : option (list row);                  (* data_rows *)
  tm_beta_cuts : bool;                          (* beta_constraints_as_cuts *)
  tm_gen_cuts : bool;                           (* generate_cuts *)
  tm_rounds : nat;                              (* num_cuts_round *)
  tm_leaf_cons : list (option nat);
  tm_row_cons : list (option nat);
  tm_added : list bool;                         (* added_row *)
  tm_cut_cons : list nat;
  tm_ns_vars : list (key2 * nat);
  tm_ns_cons : list (key3 * nat);
  tm_total_cuts : nat;                          (* total_cuts_added *)
  tm_obj : Q;                                   (* rmp_objective_ *)
  tm_prev : Q;                                  (* prev_rmp_objective_ *)
  tm_iter : nat;                                (* iter_ *)
  tm_values : list (nat * Q);                   (* path_solution_values *)
  tm_answer : option lp_answer;                 (* rmp_result_status *)
  tm_selected : option (list path);             (* selected_paths *)
  tm_calls : nat
}.

(** __init__, lines 539-564. *)
Definition tmaster_init (paths : list path) (leaves : list leaf) (nodes : list node) (splits : list split)
    (beta_cuts gen_cuts : bool) (rounds : nat) (rows : option (list row)) : tmaster :=
  mkTm false [] [] empty_lp (mkCut 0 [] []) paths [] leaves nodes splits rows beta_cuts gen_cuts rounds
       [] [] [] [] [] [] 0 0 0 0 [] None None 0.

(** Lines 633-639: variables and objective of the initial paths; each path gets its variable index as id. *)
Definition with_id (p : path) (id : nat) : path :=
  mkPath (p_leaf p) (p_nodes p) (p_splits p) (p_cost p) id (p_target p) (p_initial p).
Definition make_path_vars (paths : list path) (m : lp) : lp * list path :=
  fold_left (fun st p =>
    let '(m, ps) := st in
    let '(v, m1) := new_var (Some 0%Q) None true m in
    (set_obj v (p_cost p) m1, ps ++ [with_id p v])) paths (m, []).

(** Set coefficient 1 in constraint [c] for the variables of the given paths. *)
Definition set_ones (c : nat) (paths : list path) (m : lp) : lp :=
  fold_left (fun m p => set_coef c (p_id p) 1%Q m) paths m.

(** [l[i] = a] *)
Definition setitem {A} (l : list A) (i : nat) (a : A) : res (list A) :=
  if i <? length l then Ok (set_nth l i a) else Err IndexError.

(** Lines 643-650: leaf constraints. *)
Definition make_leaf_cons (paths : list path) (leaves : list leaf) (m : lp) : res (lp * list (option nat)) :=
  for_each leaves
    (fun lf st =>
       let '(m, cs) := st in
       let '(c, m1) := new_con (Some 1%Q) (Some 1%Q) m in
       let* cs1 := setitem cs (l_id lf) (Some c) in
       Ok (set_ones c (filter (fun p => p_leaf p =? l_id lf) paths) m1, cs1))
    (m, repeat None (length leaves)).

(** The paths of the list followed by a sample (lines 669-671). *)
Fixpoint followed (x : sample) (leaves : list leaf) (splits : list split) (paths : list path) : res (list path) :=
  match paths with
  | [] => Ok []
  | p :: ps =>
      let* lf := getitem leaves (p_leaf p) in
      let* b := row_satisfies_path x lf splits p in
      let* qs := followed x leaves splits ps in
      Ok (if (b : bool) then p :: qs else qs)
  end.

(** Lines 657-673: row constraints. *)
Definition make_row_cons (beta_cuts : bool) (X : list sample) (leaves : list leaf) (splits : list split)
    (paths : list path) (rows : list row) (m : lp) : res (lp * list (option nat) * list bool) :=
  if beta_cuts then Ok (m, repeat None (length X), repeat false (length X))
  else
    for_each (seq 0 (length X))
      (fun r st =>
         let '(m, cs, added) := st in
         let* dr := getitem rows r in
         if r_gone dr then Ok st
         else
           let* added1 := setitem added r true in
           let '(c, m1) := new_con None (Some 1%Q) m in
           let* cs1 := setitem cs r (Some c) in
           let* x := getitem X r in
           let* ps := followed x leaves splits paths in
           Ok (set_ones c ps m1, cs1, added1))
      (m, repeat None (length X), repeat false (length X)).

(** [path.node_ids[i] == node and path.splits[i] == split] for some i (lines 707-710 and 891-894). *)
Fixpoint uses_loop (p : path) (n s : nat) (is : list nat) : res bool :=
  match is with
  | [] => Ok false
  | i :: is' =>
      let* n' := getitem (p_nodes p) i in
      if n' =? n then
        let* s' := getitem (p_splits p) i in
        if s' =? s then let* _ := uses_loop p n s is' in Ok true else uses_loop p n s is'
      else uses_loop p n s is'
  end.
(** The code goes on after a match and sets the same coefficient again, which has no effect. *)
Definition uses (p : path) (l n s : nat) : res bool :=
  if p_leaf p =? l then uses_loop p n s (seq 0 (length (p_nodes p))) else Ok false.

(** Lines 687-715: the consistency constraint of (leaf, node, split). *)
Definition ns_state := (lp * list (key2 * nat) * list (key3 * nat))%type.
Definition make_ns (paths : list path) (l n s : nat) (st : ns_state) : res ns_state :=
  let '(m, vars, cs) := st in
  let '(v, m1) := match assoc key2_eqb vars (n, s) with
                  | Some v => (v, m)
                  | None => new_var (Some 0%Q) None true m
                  end in
  let vars1 := assoc_set key2_eqb vars (n, s) v in
  let '(c, m2) := new_con (Some 0%Q) (Some 0%Q) m1 in
  let m3 := set_coef c v (-1)%Q m2 in
  let* m4 := for_each paths
    (fun p m => let* b := uses p l n s in Ok (if (b : bool) then set_coef c (p_id p) 1%Q m else m)) m3 in
  Ok (m4, vars1, assoc_set key3_eqb cs (l, n, s) c).

(** The three nested loops of lines 681-687, 882-886 and 1098-1104: (leaf id, node id, split id) in order. *)
Definition for_ns {A} (leaves : list leaf) (nodes : list node) (body : nat -> nat -> nat -> A -> res A) (a : A) : res A :=
  for_each leaves
    (fun lf a =>
       for_each (l_left lf ++ l_right lf)
         (fun i a =>
            let* n := getitem nodes i in
            for_each (n_cands n) (fun s a => body (l_id lf) (n_id n) s a) a) a) a.

(** generate_mp, lines 620-717. *)
Definition generate_mp (X : list sample) (y : list nat) (s : tmaster) : res tmaster :=
  if tm_generated s then Ok s
  else
    let* cm := create_cut_gen_model (tm_paths s) (tm_leaves s) (tm_splits s) in
    let '(m1, paths) := make_path_vars (tm_paths s) (tm_lp s) in
    let m2 := set_dir true m1 in
    let* (m3, leaf_cons) := make_leaf_cons paths (tm_leaves s) m2 in
    let* (nodes, rows) :=
      (match tm_rows s with
       | None => preprocess_rows false X (tm_leaves s) (tm_nodes s) (tm_splits s) paths
       | Some rows =>
           let* rows1 := compute_satisfied_paths X (tm_leaves s) (tm_splits s) paths rows in Ok (tm_nodes s, rows1)
       end) in
    let* (m4, row_cons, added) := make_row_cons (tm_beta_cuts s) X (tm_leaves s) (tm_splits s) paths rows m3 in
    let* (m5, ns_vars, ns_cons) := for_ns (tm_leaves s) nodes (make_ns paths) (m4, [], []) in
    Ok (mkTm true X y m5 cm paths (map p_id paths) (tm_leaves s) nodes (tm_splits s) (Some rows)
             (tm_beta_cuts s) (tm_gen_cuts s) (tm_rounds s) leaf_cons row_cons added [] ns_vars ns_cons
             (tm_total_cuts s) (tm_obj s) (tm_prev s) (tm_iter s) (tm_values s) (tm_answer s) (tm_selected s) (tm_calls s)).

(** [cs[i].SetCoefficient(v, 1)] where the entry may be None. *)
Definition set_con_one (cs : list (option nat)) (i v : nat) (m : lp) : res lp :=
  let* o := getitem cs i in
  match o with Some c => Ok (set_coef c v 1%Q m) | None => Err AttributeError end.

(** Lines 868-870. *)
Definition column_leaf (leaf_cons : list (option nat)) (leaves : list leaf) (p : path) (v : nat) (m : lp) : res lp :=
  for_each leaves (fun lf m => if p_leaf p =? l_id lf then set_con_one leaf_cons (l_id lf) v m else Ok m) m.

(** Lines 875-879. *)
Definition column_rows (row_cons : list (option nat)) (added : list bool) (sat : list nat) (v : nat)
    (st : lp * list row) : res (lp * list row) :=
  for_each sat
    (fun r st =>
       let '(m, rows) := st in
       let* dr := getitem rows r in
       let rows1 := set_nth rows r (with_paths dr (set_add v (r_paths dr))) in
       let* a := getitem added r in
       if (a : bool) then let* m1 := set_con_one row_cons r v m in Ok (m1, rows1) else Ok (m, rows1)) st.

(** Lines 882-895. *)
Definition column_ns (ns_cons : list (key3 * nat)) (p : path) (v : nat) (l n s : nat) (m : lp) : res lp :=
  let* c := lookup key3_eqb ns_cons (l, n, s) in
  let* b := uses p l n s in
  Ok (if (b : bool) then set_coef c v 1%Q m else m).

(** Lines 900-901. *)
Definition column_cuts (cut_cons : list nat) (sat : list nat) (v : nat) (m : lp) : res lp :=
  for_each sat (fun k m => let* c := getitem cut_cons k in Ok (set_coef c v 1%Q m)) m.

Definition tm_data_rows (s : tmaster) : res (list row) :=
  match tm_rows s with Some rows => Ok rows | None => Err TypeError end.

(** add_column, lines 852-925. *)
Definition add_column (p : path) (s : tmaster) : res (bool * tmaster) :=
  let '(v, m1) := new_var (Some 0%Q) None true (tm_lp s) in
  let m2 := set_obj v (p_cost p) m1 in
  let p1 := with_id p v in
  let* m3 := column_leaf (tm_leaf_cons s) (tm_leaves s) p1 v m2 in
  let* lf := getitem (tm_leaves s) (p_leaf p1) in
  let* sat := get_satisfied_rows p1 lf (tm_splits s) in
  let* rows := tm_data_rows s in
  let* (m4, rows1) := column_rows (tm_row_cons s) (tm_added s) sat v (m3, rows) in
  let* m5 := for_ns (tm_leaves s) (tm_nodes s) (column_ns (tm_ns_cons s) p1 v) m4 in
  let* cuts := get_satisfied_cuts p1 lf (tm_splits s) in
  let* m6 := column_cuts (tm_cut_cons s) cuts v m5 in
  let* lits := path_literals (cm_splits (tm_cutmodel s)) lf p1 in
  Ok (true,
      mkTm (tm_generated s) (tm_X s) (tm_y s) m6
           (mkCut (cm_splits (tm_cutmodel s)) (cm_paths (tm_cutmodel s) ++ [lits]) (cm_imps (tm_cutmodel s)))
           (tm_paths s ++ [p1]) (tm_path_vars s ++ [v]) (tm_leaves s) (tm_nodes s) (tm_splits s) (Some rows1)
           (tm_beta_cuts s) (tm_gen_cuts s) (tm_rounds s) (tm_leaf_cons s) (tm_row_cons s) (tm_added s) (tm_cut_cons s)
           (tm_ns_vars s) (tm_ns_cons s) (tm_total_cuts s) (tm_obj s) (tm_prev s) (tm_iter s) (tm_values s)
           (tm_answer s) (tm_selected s) (tm_calls s)).

(** The tolerance 1e-6. *)
Definition teps : Q := 1 # 1000000.

(** store_lp_solution, lines 719-725, for solution [x]. *)
Definition store_lp_solution (x : nat -> Q) (s : tmaster) : tmaster :=
  mkTm (tm_generated s) (tm_X s) (tm_y s) (tm_lp s) (tm_cutmodel s) (tm_paths s) (tm_path_vars s) (tm_leaves s)
       (tm_nodes s) (tm_splits s) (tm_rows s) (tm_beta_cuts s) (tm_gen_cuts s) (tm_rounds s) (tm_leaf_cons s)
       (tm_row_cons s) (tm_added s) (tm_cut_cons s) (tm_ns_vars s) (tm_ns_cons s) (tm_total_cuts s)
       (objective_value (tm_lp s) x) (tm_prev s) (tm_iter s) (map (fun v => (v, x v)) (tm_path_vars s)) (tm_answer s)
       (tm_selected s) (tm_calls s).

(** Replace the solver model and the constraint lists. *)
Definition with_cons (s : tmaster) (m : lp) (splits : list split) (row_cons : list (option nat)) (added : list bool)
    (cut_cons : list nat) : tmaster :=
  mkTm (tm_generated s) (tm_X s) (tm_y s) m (tm_cutmodel s) (tm_paths s) (tm_path_vars s) (tm_leaves s)
       (tm_nodes s) splits (tm_rows s) (tm_beta_cuts s) (tm_gen_cuts s) (tm_rounds s) (tm_leaf_cons s)
       row_cons added cut_cons (tm_ns_vars s) (tm_ns_cons s) (tm_total_cuts s) (tm_obj s) (tm_prev s) (tm_iter s)
       (tm_values s) (tm_answer s) (tm_selected s) (tm_calls s).

(** CutGenerator.on_solution_callback, lines 510-526.  [cuts] collects (cut, cut_row) pairs. *)
Definition on_cut_solution (n_splits : nat) (coeffs : list Q) (cuts : list (list bool * list bool))
    (pz : (nat -> bool) * (nat -> bool)) : list (list bool * list bool) :=
  let obj := qsum (fun i => if fst pz i then nth i coeffs 0%Q else 0%Q) (seq 0 (length coeffs)) in
  if Qltb (1 + teps) obj then cuts ++ [(map (fst pz) (seq 0 (length coeffs)), map (snd pz) (seq 0 n_splits))] else cuts.

(** Lines 956-962: record the index [k] of a new cut in the splits. *)
Definition store_cut (k : nat) (cut_row : list bool) (splits : list split) : res (list split) :=
  map_res (fun sp => let* b := getitem cut_row (s_id sp) in
                     Ok (mkSplit (s_id sp) (s_feature sp) (s_threshold sp) (s_removed sp) (s_lrows sp) (s_rrows sp)
                           (if (b : bool) then set_add k (s_lcuts sp) else s_lcuts sp)
                           (if (b : bool) then s_rcuts sp else set_add k (s_rcuts sp)))) splits.

(** Lines 964-973: the constraint of one new cut. *)
Definition make_cut_con (paths : list path) (cut : list bool) (st : lp * list nat * list bool)
  : res (lp * list nat * list bool) :=
  let '(m, cs, added) := st in
  let '(c, m1) := new_con (Some 1%Q) (Some 1%Q) m in
  let* m2 := for_each (seq 0 (length paths))
    (fun i m => let* p := getitem paths i in let* b := getitem cut i in
                Ok (if (b : bool) then set_coef c (p_id p) 1%Q m else m)) m1 in
  Ok (m2, cs ++ [c], added ++ [true]).

(** add_cuts, lines 927-975.  [solutions] are the solutions CP-SAT reports to the callback for the cut model with the given
    integer objective coefficients, in order. *)
Definition add_cuts (solutions : cutmodel -> list Z -> list ((nat -> bool) * (nat -> bool))) (s : tmaster)
  : res (list (list bool) * tmaster) :=
  let* coeffs := map_res (fun p => lookup Nat.eqb (tm_values s) (p_id p)) (tm_paths s) in
  let scaled := map (fun q => Qfloor (q * inject_Z 1000000)) coeffs in
  let cuts := fold_left (on_cut_solution (cm_splits (tm_cutmodel s)) coeffs) (solutions (tm_cutmodel s) scaled) [] in
  if length cuts =? 0 then Ok ([], s)
  else
    let first := length (tm_cut_cons s) in
    let* splits := for_each (combine (seq first (length cuts)) cuts)
      (fun kc splits => store_cut (fst kc) (snd (snd kc)) splits) (tm_splits s) in
    let* (m, cs, added) := for_each cuts (fun c st => make_cut_con (tm_paths s) (fst c) st)
      (tm_lp s, tm_cut_cons s, tm_added s) in
    Ok (map snd cuts, with_cons s m splits (tm_row_cons s) added cs).

(** violated_row_constraint, lines 981-988. *)
Definition violated_row_constraint (values : list (nat * Q)) (ids : list nat) : res bool :=
  let* sum := for_each ids (fun i acc => let* q := lookup Nat.eqb values i in Ok (acc + q)%Q) 0%Q in
  Ok (Qltb teps (Qabs (sum - 1))).

(** add_beta_cuts, lines 990-1013.  The loop over the rows; reaching 10 cuts ends it. *)
Fixpoint beta_loop (rows : list row) (values : list (nat * Q)) (rs : list nat)
    (st : lp * list (option nat) * list bool) (num : nat) : res (nat * (lp * list (option nat) * list bool)) :=
  match rs with
  | [] => Ok (num, st)
  | r :: rs' =>
      let '(m, cs, added) := st in
      let* dr := getitem rows r in
      if r_gone dr then beta_loop rows values rs' st num
      else if 10 <=? num then Ok (num, st)
      else
        let* a := getitem added r in
        if (a : bool) then beta_loop rows values rs' st num
        else
          let ids := r_paths dr in
          let* v := violated_row_constraint values ids in
          if (v : bool) then
            let* added1 := setitem added r true in
            let '(c, m1) := new_con None (Some 1%Q) m in
            let* cs1 := setitem cs r (Some c) in
            let m2 := fold_left (fun m i => set_coef c i 1%Q m) ids m1 in
            beta_loop rows values rs' (m2, cs1, added1) (S num)
          else beta_loop rows values rs' st num
  end.
Definition add_beta_cuts (s : tmaster) : res (nat * tmaster) :=
  let* _ := assert (tm_generated s) in
  let* rows := tm_data_rows s in
  let* (num, (m, row_cons, added)) :=
    beta_loop rows (tm_values s) (seq 0 (length (tm_X s))) (tm_lp s, tm_row_cons s, tm_added s) 0 in
  Ok (num, with_cons s m (tm_splits s) row_cons added (tm_cut_cons s)).

(** What solve_rmp returns (line 1113). *)
Record tduals := mkDuals {
  d_leaf : list Q;
  d_row : list Q;
  d_ns : list (key3 * Q);
  d_cut : list Q;
  d_new_cuts : list (list bool)
}.

(** The external solvers; the first argument is the number of calls made before. *)
Record tsolvers := mkTsv {
  tv_lp : nat -> lp -> option lp_answer;
  tv_cuts : nat -> cutmodel -> list Z -> list ((nat -> bool) * (nat -> bool));
  tv_ip : nat -> lp -> option (nat -> Q)
}.

(** [self.rmp_result_status = self.solver_.Solve(...)] *)
Definition solve_lp (sv : tsolvers) (s : tmaster) : tmaster :=
  mkTm (tm_generated s) (tm_X s) (tm_y s) (tm_lp s) (tm_cutmodel s) (tm_paths s) (tm_path_vars s) (tm_leaves s)
       (tm_nodes s) (tm_splits s) (tm_rows s) (tm_beta_cuts s) (tm_gen_cuts s) (tm_rounds s) (tm_leaf_cons s)
       (tm_row_cons s) (tm_added s) (tm_cut_cons s) (tm_ns_vars s) (tm_ns_cons s) (tm_total_cuts s)
       (tm_obj s) (tm_prev s) (tm_iter s) (tm_values s) (tv_lp sv (tm_calls s) (tm_lp s)) (tm_selected s) (S (tm_calls s)).
Definition add_total (k : nat) (s : tmaster) : tmaster :=
  mkTm (tm_generated s) (tm_X s) (tm_y s) (tm_lp s) (tm_cutmodel s) (tm_paths s) (tm_path_vars s) (tm_leaves s)
       (tm_nodes s) (tm_splits s) (tm_rows s) (tm_beta_cuts s) (tm_gen_cuts s) (tm_rounds s) (tm_leaf_cons s)
       (tm_row_cons s) (tm_added s) (tm_cut_cons s) (tm_ns_vars s) (tm_ns_cons s) (tm_total_cuts s + k)
       (tm_obj s) (tm_prev s) (tm_iter s) (tm_values s) (tm_answer s) (tm_selected s) (S (tm_calls s)).

(** Lines 1040-1072: the cut rounds. *)
Fixpoint cut_rounds (sv : tsolvers) (n : nat) (s : tmaster) (new_cuts : list (list bool))
  : res (list (list bool) * tmaster) :=
  match n with
  | O => Ok (new_cuts, s)
  | S n' =>
      match tm_answer s with
      | None => Ok (new_cuts, s)
      | Some (x, _) =>
          let s1 := store_lp_solution x s in
          let* (num_beta, s2) := (if tm_beta_cuts s1 then add_beta_cuts s1 else Ok (0, s1)) in
          let* (cut_rows, s3) :=
            (if tm_gen_cuts s2 && (num_beta =? 0) then add_cuts (tv_cuts sv (tm_calls s2)) s2 else Ok ([], s2)) in
          let s4 := add_total (length cut_rows + num_beta) s3 in
          if (0 <? length cut_rows) || (0 <? num_beta) then
            cut_rounds sv n' (solve_lp sv s4) (new_cuts ++ cut_rows)
          else Ok (new_cuts, s4)
      end
  end.

(** Lines 1085-1107: read the duals. *)
Definition con_dual (pi : nat -> Q) (cs : list (option nat)) (i : nat) : res Q :=
  let* o := getitem cs i in match o with Some c => Ok (pi c) | None => Err AttributeError end.
Definition read_duals (pi : nat -> Q) (new_cuts : list (list bool)) (s : tmaster) : res tduals :=
  let* leaf_duals := map_res (con_dual pi (tm_leaf_cons s)) (seq 0 (length (tm_leaves s))) in
  let* row_duals := map_res (fun r => let* a := getitem (tm_added s) r in
                                      if (a : bool) then con_dual pi (tm_row_cons s) r else Ok 0%Q)
                            (seq 0 (length (tm_X s))) in
  let* ns := for_ns (tm_leaves s) (tm_nodes s)
    (fun l n sp d => let* c := lookup key3_eqb (tm_ns_cons s) (l, n, sp) in
                     Ok (assoc_set key3_eqb d (l, n, sp) (pi c))) [] in
  Ok (mkDuals leaf_duals row_duals ns (map pi (tm_cut_cons s)) new_cuts).

Definition start_iter (s : tmaster) : tmaster :=
  mkTm (tm_generated s) (tm_X s) (tm_y s) (tm_lp s) (tm_cutmodel s) (tm_paths s) (tm_path_vars s) (tm_leaves s)
       (tm_nodes s) (tm_splits s) (tm_rows s) (tm_beta_cuts s) (tm_gen_cuts s) (tm_rounds s) (tm_leaf_cons s)
       (tm_row_cons s) (tm_added s) (tm_cut_cons s) (tm_ns_vars s) (tm_ns_cons s) (tm_total_cuts s)
       (tm_obj s) (tm_obj s) (S (tm_iter s)) (tm_values s) (tm_answer s) (tm_selected s) (tm_calls s).

(** solve_rmp, lines 1024-1113. *)
Definition solve_rmp (sv : tsolvers) (s : tmaster) : res (tduals * tmaster) :=
  let* _ := assert (tm_generated s) in
  let s1 := solve_lp sv (start_iter s) in
  let* (new_cuts, s2) := (if tm_iter s1 mod 10 =? 0 then cut_rounds sv (tm_rounds s1) s1 [] else Ok ([], s1)) in
  match tm_answer s2 with
  | Some (x, pi) =>
      let s3 := store_lp_solution x s2 in
      let* d := read_duals pi new_cuts s3 in Ok (d, s3)
  | None => Ok (mkDuals [] [] [] [] new_cuts, s2)
  end.

(** rmp_objective_improved, lines 1115-1119. *)
Definition rmp_objective_improved (s : tmaster) : bool :=
  match tm_answer s with Some _ => Qltb (tm_prev s) (tm_obj s) | None => false end.

(** solve_ip, lines 1121-1163.  The exported model has the variables of [solver_] in order; [None]: no solution. *)
Definition with_selected (ps : list path) (s : tmaster) : tmaster :=
  mkTm (tm_generated s) (tm_X s) (tm_y s) (tm_lp s) (tm_cutmodel s) (tm_paths s) (tm_path_vars s) (tm_leaves s)
       (tm_nodes s) (tm_splits s) (tm_rows s) (tm_beta_cuts s) (tm_gen_cuts s) (tm_rounds s) (tm_leaf_cons s)
       (tm_row_cons s) (tm_added s) (tm_cut_cons s) (tm_ns_vars s) (tm_ns_cons s) (tm_total_cuts s)
       (tm_obj s) (tm_prev s) (tm_iter s) (tm_values s) (tm_answer s) (Some ps) (S (tm_calls s)).
Definition solve_ip (answer : option (nat -> Q)) (s : tmaster) : res (bool * tmaster) :=
  let* _ := assert (tm_generated s) in
  match answer with
  | None => Err AssertionError
  | Some x => Ok (true, with_selected (filter (fun p => Qltb 0 (x (p_id p))) (tm_paths s)) s)
  end.

(** * DTreeClassifier *)

(** Lines 2440-2472: validation in __init__ (ids in sequence, initial paths made of known objects). *)
Definition check_sequence (ids : list nat) : res nat :=
  for_each ids (fun id k => let* _ := assert (id =? k) in Ok (k + 1)) 0.
Definition check_path (depth : nat) (targets : list Z) (leaf_ids node_ids split_ids : list nat) (p : path) : res unit :=
  let* _ := assert (memb (p_leaf p) leaf_ids) in
  let* _ := for_each (p_nodes p) (fun n _ => assert (memb n node_ids)) tt in
  let* _ := for_each (p_splits p) (fun s _ => assert (memb s split_ids)) tt in
  let* _ := assert (existsb (Z.eqb (p_target p)) targets) in
  let* _ := assert (length (p_nodes p) =? depth) in
  assert (length (p_splits p) =? depth).
Definition check_arguments (paths : list path) (leaves : list leaf) (nodes : list node) (splits : list split)
    (depth : nat) (targets : list Z) : res unit :=
  let* _ := check_sequence (map n_id nodes) in
  let* _ := check_sequence (map l_id leaves) in
  for_each paths (fun p _ => check_path depth targets (map l_id leaves) (map n_id nodes) (map s_id splits) p) tt.

(** Lines 2532-2544: the class code predicted for one sample. *)
Fixpoint predict_code (x : sample) (leaves : list leaf) (splits : list split) (selected : list path) : res Z :=
  match selected with
  | [] => Ok 0%Z
  | p :: ps =>
      let* lf := getitem leaves (p_leaf p) in
      let* b := row_satisfies_path x lf splits p in
      if (b : bool) then Ok (p_target p) else predict_code x leaves splits ps
  end.
(** LabelEncoder.inverse_transform: ValueError for a code that is not a class index. *)
Definition decode {L} (classes : list L) (code : Z) : res L :=
  if (code <? 0)%Z then Err ValueError
  else match nth_error classes (Z.to_nat code) with Some l => Ok l | None => Err ValueError end.
(** predict, lines 2519-2545. *)
Definition predict {L} (classes : list L) (leaves : list leaf) (splits : list split) (selected : list path)
    (X : list sample) : res (list L) :=
  let* codes := map_res (fun x => predict_code x leaves splits selected) X in
  map_res (decode classes) codes.

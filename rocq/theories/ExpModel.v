(** Model of examples/dtree_experiment.py: how the arguments of DTreeClassifier are prepared from CART trees (definitions only;
    line numbers refer to that file unless said otherwise).

    Simplifications: as in TreeModel.v.  Dictionaries are association lists in insertion order.  Thresholds are exact
    rationals.  Fitting CART trees, file input, printing and the results file are not modelled: the arrays of the fitted
    CART trees are arguments.  Splits with id -1 ("no split", line 717) are [None]. *)
From Verif Require Import Base Lp TreeModel.
Open Scope nat_scope.

(** The arrays of a fitted CART tree (scikit-learn: tree_.children_left and so on); a leaf has both children -1. *)
Record cart := mkCart { ct_left : list Z; ct_right : list Z; ct_feature : list nat; ct_threshold : list Q }.
Definition ct_count (c : cart) : nat := length (ct_left c).

(** get_is_leaves, lines 658-663. *)
Definition get_is_leaves (n : nat) (lefts rights : list Z) : res (list bool) :=
  map_res (fun i => let* a := getitem lefts i in let* b := getitem rights i in Ok (a =? b)%Z) (seq 0 n).

(** * Splits *)

(** Dictionaries of splits with (feature, threshold) as keys. *)
Definition skey := (nat * Q)%type.
Definition skey_eqb (a b : skey) : bool := (fst a =? fst b) && Qeq_bool (snd a) (snd b).
Definition registry := list (skey * split).
Definition new_split (id f : nat) (t : Q) : split := mkSplit id f t false [] [] [] [].

(** Lines 674-680 and 688-695: a split for a key that is not in the dictionary. *)
Definition register (key : skey) (d : registry) : registry :=
  match assoc skey_eqb d key with
  | Some _ => d
  | None => d ++ [(key, new_split (length d) (fst key) (snd key))]
  end.
(** get_all_splits, lines 666-681. *)
Definition get_all_splits (n : nat) (c : cart) (is_leaves : list bool) : res registry :=
  for_each (seq 0 n)
    (fun i d => let* leaf := getitem is_leaves i in
                if (leaf : bool) then Ok d
                else let* f := getitem (ct_feature c) i in
                     let* t := getitem (ct_threshold c) i in
                     Ok (register (f, t) d)) [].
(** merge_all_splits, lines 684-696. *)
Definition merge_all_splits (d1 d2 : registry) : registry := fold_left (fun d kv => register (fst kv) d) d2 d1.

(** get_splits_list, lines 522-530, get_nodes_list, lines 533-539, and get_leaves_list, lines 542-548: objects by id.  An
    entry that stays None (here: AttributeError at once) makes its first use raise AttributeError. *)
Definition by_id {K A} (id : A -> nat) (d : list (K * A)) : res (list A) :=
  let* l := for_each d (fun kv l => let* _ := getitem l (id (snd kv)) in Ok (set_nth l (id (snd kv)) (Some (snd kv))))
              (repeat None (length d)) in
  map_res (fun o => match o with Some a => Ok a | None => Err AttributeError end) l.
Definition get_splits_list (d : registry) : res (list split) := by_id s_id d.

(** * Nodes *)

(** Node with the attributes used during initialization only (_dtree_classifier.py:280-290). *)
Record enode := mkEn {
  en_id : nat;
  en_cands : list nat;           (* candidate_splits *)
  en_counts : list nat;          (* candidate_splits_count *)
  en_last : option nat           (* last_split *)
}.
Definition ndict := list (nat * enode).

(** Lines 710-720: the node for CART node [i] at position [id]. *)
Definition cart_node (c : cart) (d : registry) (i id : nat) : res enode :=
  let* f := getitem (ct_feature c) i in
  let* t := getitem (ct_threshold c) i in
  Ok match assoc skey_eqb d (f, t) with
     | Some s => mkEn id [s_id s] [1] (Some (s_id s))
     | None => mkEn id [] [] None
     end.
(** get_all_nodes, lines 699-722; [m] is node_id_mapping. *)
Definition get_all_nodes (c : cart) (n : nat) (is_leaves : list bool) (d : registry) : res ndict :=
  let* (nodes, _) :=
    for_each (seq 0 n)
      (fun i nm =>
         let '(nodes, m) := nm in
         let* leaf := getitem is_leaves i in
         if (leaf : bool) then Ok nm
         else let* id := lookup Z.eqb m (Z.of_nat i) in
              let* nd := cart_node c d i id in
              let* a := getitem (ct_left c) i in
              let* m1 := Ok (assoc_set Z.eqb m a (2 * id + 1)) in
              let* b := getitem (ct_right c) i in
              let* m2 := Ok (assoc_set Z.eqb m1 b (2 * id + 2)) in
              Ok (assoc_set Nat.eqb nodes id nd, m2))
      ([], [(0%Z, 0)]) in
  Ok nodes.

(** list.index(x): ValueError if missing. *)
Fixpoint index_of (x : nat) (l : list nat) : res nat :=
  match l with
  | [] => Err ValueError
  | z :: l' => if z =? x then Ok 0 else let* i := index_of x l' in Ok (S i)
  end.
(** merge_all_nodes, lines 725-743.  Lines 734-740: one split of a node. *)
Definition merge_split (count k : nat) (nd : enode) : res enode :=
  if memb k (en_cands nd) then
    let* i := index_of k (en_cands nd) in
    let* q := getitem (en_counts nd) i in
    Ok (mkEn (en_id nd) (en_cands nd) (set_nth (en_counts nd) i (q + count)) (en_last nd))
  else Ok (mkEn (en_id nd) (en_cands nd ++ [k]) (en_counts nd ++ [count]) (en_last nd)).
Definition merge_node (count : nat) (nd nd2 : enode) : res enode :=
  for_each (en_cands nd2) (merge_split count) (mkEn (en_id nd) (en_cands nd) (en_counts nd) (en_last nd2)).
Definition merge_all_nodes (count : nat) (d1 d2 : ndict) : res ndict :=
  for_each d2
    (fun kn d => match assoc Nat.eqb d (fst kn) with
                 | Some nd => let* nd1 := merge_node count nd (snd kn) in Ok (assoc_set Nat.eqb d (fst kn) nd1)
                 | None => Ok d
                 end) d1.

(** Lines 139-145: the nodes of the complete tree, without candidates. *)
Definition empty_nodes (depth : nat) : ndict := map (fun i => (i, mkEn i [] [] None)) (seq 0 (2 ^ depth - 1)).
(** Lines 212-217: nodes that never appeared get split 0. *)
Definition fill_nodes (depth : nat) (d : ndict) : res ndict :=
  for_each (seq 0 (2 ^ depth - 1))
    (fun i d => let* nd := lookup Nat.eqb d i in
                match en_cands nd with
                | [] => Ok (assoc_set Nat.eqb d i (mkEn (en_id nd) [0] (en_counts nd ++ [0]) (Some 0)))
                | _ => Ok d
                end) d.

(** * Initial paths *)

(** Lines 572-582 and 610-622: the nodes above position [count], bottom up, with "is a left node".  [fuel]: a position below
    [2 ^ fuel] suffices. *)
Fixpoint fathers (fuel count : nat) : list (nat * bool) :=
  match fuel with
  | 0 => []
  | S fuel' => if count =? 0 then []
               else let father := (count - 1) / 2 in (father, count =? 2 * father + 1) :: fathers fuel' father
  end.
Definition fathers_of (depth l : nat) : list (nat * bool) := fathers (S depth) (2 ^ depth - 1 + l).

(** Lines 584-598 and 624-638: majority class of the rows that follow the path.  row_satisfies_path (lines 642-655) is the same
    code as in _dtree_classifier.py. *)
Definition majority (splits : list split) (X : list sample) (y : list nat) (lf : leaf) (p : path) : res (nat * nat) :=
  let* y0 := getitem y 0 in
  let* r := for_each (seq 0 (length X))
    (fun r acc =>
       let '(counts, best, cost) := acc in
       let* x := getitem X r in
       let* b := row_satisfies_path x lf splits p in
       if (b : bool) then
         let* t := getitem y r in
         let q := match assoc Nat.eqb counts t with Some q => q + 1 | None => 1 end in
         Ok (assoc_set Nat.eqb counts t q, (if cost <? q then t else best), (if cost <? q then q else cost))
       else Ok acc) ([], y0, 0) in
  Ok (snd (fst r), snd r).
Definition finish_path (splits : list split) (X : list sample) (y : list nat) (lf : leaf) (id : nat) (nodes ks : list nat) : res path :=
  let p := mkPath (l_id lf) nodes ks 0 id 0 false in
  let* (t, q) := majority splits X y lf p in
  Ok (mkPath (l_id lf) nodes ks (inject_Z (Z.of_nat q)) id (Z.of_nat t) false).

(** get_all_leaves_paths, lines 559-602.  A last split of -1 would select the last split by Python's negative index; here:
    IndexError (fill_nodes leaves no such node). *)
Definition leaf_path (nodes : ndict) (depth : nat) (splits : list split) (X : list sample) (y : list nat) (l : nat) : res (leaf * path) :=
  let fs := fathers_of depth l in
  let* ks := map_res (fun f => let* nd := lookup Nat.eqb nodes (fst f) in
                               match en_last nd with Some k => Ok k | None => Err IndexError end) fs in
  let lf := mkLeaf l (map fst (filter snd fs)) (map fst (filter (fun f => negb (snd f)) fs)) in
  let* p := finish_path splits X y lf l (map fst fs) ks in
  Ok (lf, p).
Definition get_all_leaves_paths (nodes : ndict) (depth : nat) (splits : list split) (X : list sample) (y : list nat)
  : res (list leaf * list path) :=
  let* lps := map_res (leaf_path nodes depth splits X y) (seq 0 (2 ^ depth)) in
  Ok (map fst lps, map snd lps).

(** get_path_for_leaf, lines 605-639; [None]: the CART tree has no usable path to the leaf. *)
Fixpoint path_choices (tree_nodes : ndict) (splits : list split) (fs : list nat) : res (option (list nat)) :=
  match fs with
  | [] => Ok (Some [])
  | f :: fs' =>
      match assoc Nat.eqb tree_nodes f with
      | None => Ok None
      | Some nd =>
          match en_last nd with
          | None => Ok None
          | Some k =>
              let* s := getitem splits k in
              if s_removed s then Ok None
              else let* o := path_choices tree_nodes splits fs' in
                   Ok match o with Some ks => Some (k :: ks) | None => None end
          end
      end
  end.
Definition get_path_for_leaf (lf : leaf) (tree_nodes : ndict) (depth : nat) (splits : list split) (X : list sample) (y : list nat)
  : res (option path) :=
  let fs := map fst (fathers_of depth (l_id lf)) in
  let* o := path_choices tree_nodes splits fs in
  match o with
  | None => Ok None
  | Some ks => let* p := finish_path splits X y lf 0 fs ks in Ok (Some p)
  end.

(** Lines 262-276: the paths of one more CART tree. *)
Definition known (p : path) (paths : list path) : res bool :=
  for_each paths (fun q b => if (b : bool) then Ok b else is_same_as p q) false.
Definition add_tree_paths (leaves : list leaf) (tree_nodes : ndict) (depth : nat) (splits : list split) (X : list sample) (y : list nat)
    (paths : list path) : res (list path) :=
  for_each leaves
    (fun lf paths =>
       let* o := get_path_for_leaf lf tree_nodes depth splits X y in
       match o with
       | None => Ok paths
       | Some p => let* b := known p paths in
                   Ok (if (b : bool) then paths
                       else paths ++ [mkPath (p_leaf p) (p_nodes p) (p_splits p) (p_cost p) (length paths) (p_target p) (p_initial p)])
       end) paths.

(** * Split reduction *)

(** sorted(zip(counts, ids), reverse=True), line 773. *)
Definition pair_geb (a b : nat * nat) : bool := (fst b <? fst a) || ((fst a =? fst b) && (snd b <=? snd a)).
Fixpoint insert_desc (a : nat * nat) (l : list (nat * nat)) : list (nat * nat) :=
  match l with
  | [] => [a]
  | b :: l' => if pair_geb a b then a :: b :: l' else b :: insert_desc a l'
  end.
Definition sort_desc (l : list (nat * nat)) : list (nat * nat) := fold_right insert_desc [] l.
(** Lines 764-779.  No candidate: the unpacking of line 772 raises ValueError. *)
Definition reduce_node (q_root q_node : nat) (nd : enode) : res enode :=
  let q := if en_id nd =? 0 then q_root else q_node in
  let l := sort_desc (combine (en_counts nd) (en_cands nd)) in
  match l with
  | [] => Err ValueError
  | _ => Ok (mkEn (en_id nd) (firstn q (map snd l)) (firstn q (map fst l)) (en_last nd))
  end.
Definition set_removed (b : bool) (s : split) : split :=
  mkSplit (s_id s) (s_feature s) (s_threshold s) b (s_lrows s) (s_rrows s) (s_lcuts s) (s_rcuts s).
(** reduce_splits, lines 760-791. *)
Definition reduce_splits (nodes : list enode) (splits : list split) (q_root q_node : nat) : res (list enode * list split) :=
  let* nodes1 := map_res (reduce_node q_root q_node) nodes in
  let used := flat_map en_cands nodes1 in
  Ok (nodes1, map (fun s => set_removed (negb (memb (s_id s) used)) s) splits).

(** * Rows *)

(** add_rows_to_splits, lines 386-397. *)
Definition add_row (r : nat) (x : sample) (s : split) : res split :=
  let* v := getitem x (s_feature s) in
  Ok (if Qle_bool v (s_threshold s)
      then mkSplit (s_id s) (s_feature s) (s_threshold s) (s_removed s) (set_add r (s_lrows s)) (s_rrows s) (s_lcuts s) (s_rcuts s)
      else mkSplit (s_id s) (s_feature s) (s_threshold s) (s_removed s) (s_lrows s) (set_add r (s_rrows s)) (s_lcuts s) (s_rcuts s)).
Definition add_rows_to_splits (splits : list split) (X : list sample) : res (list split) :=
  for_each (seq 0 (length X))
    (fun r splits => match splits with
                     | [] => Ok []
                     | _ => let* x := getitem X r in map_res (add_row r x) splits
                     end) splits.

(** preprocess_nodes, lines 505-519 (same computation as in _dtree_classifier.py:739-750). *)
Definition plain_node (nd : enode) : node := mkNode (en_id nd) (en_cands nd) None 0 0 false.
Definition preprocess_nodes (depth : nat) (nodes : list node) : list node := map (preprocess_node depth) nodes.

(** Lines 415-451: the row with number [r].  The attribute target is not modelled (never read); y[r] is read. *)
Definition exp_row (nodes : list node) (splits : list split) (y : list nat) (r : nat) : res row :=
  let* _ := getitem y r in
  let lr := fold_left (fun lr s => if memb r (s_lrows s) then (set_add (s_id s) (fst lr), snd lr)
                                   else (fst lr, set_add (s_id s) (snd lr))) splits ([], []) in
  let '(rn, rl) := reach (fst lr) nodes in
  Ok (mkRow rn [] rl (fst lr) (snd lr) (length rl <=? 2) false 1).

(** Line 494. *)
Definition gone_sp (r : row) : row :=
  mkRow (r_nodes r) (r_paths r) (r_leaves r) (r_left r) (r_right r) (r_gone r) true (r_weight r).
(** Line 496. *)
Definition heavier (r : row) : row :=
  mkRow (r_nodes r) (r_paths r) (r_leaves r) (r_left r) (r_right r) (r_gone r) (r_gone_sp r) (r_weight r + 1).

Section Quadratic.
(** [clk k]: result of the [k]-th call of time(); [t0]: t_start. *)
Variables (nodes : list node) (y : list nat) (time_limit : Q) (clk : nat -> Q) (t0 : Q).

(** time_limit > 0 and time()-t_start > time_limit; time() is called only if time_limit > 0. *)
Definition late (k : nat) : bool := Qltb 0 time_limit && Qltb time_limit (clk k - t0).
Definition ticked (k : nat) : nat := if Qltb 0 time_limit then S k else k.

(** Lines 488-496: row [r2] looks like row [r1]. *)
Definition drop_row (r1 r2 : nat) (rows : list row) : res (list row) :=
  let* a := getitem rows r1 in
  let* b := getitem rows r2 in
  let rows1 := if r_gone a then rows else set_nth rows r2 (gone b) in
  let* y1 := getitem y r1 in
  let* y2 := getitem y r2 in
  if y1 =? y2 then
    let* b1 := getitem rows1 r2 in
    let rows2 := set_nth rows1 r2 (gone_sp b1) in
    let* a1 := getitem rows2 r1 in
    Ok (set_nth rows2 r1 (heavier a1))
  else Ok rows1.

(** Lines 465-498. *)
Fixpoint inner_loop (r1 : nat) (rs : list nat) (rows : list row) (k : nat) : res (list row * nat) :=
  match rs with
  | [] => Ok (rows, k)
  | r2 :: rs' =>
      if late k then Ok (rows, ticked k)
      else
        let* b := getitem rows r2 in
        if r_gone_sp b then inner_loop r1 rs' rows (ticked k)
        else
          let* a := getitem rows r1 in
          let* m := rows_match nodes a b in
          if (m : bool) then let* rows1 := drop_row r1 r2 rows in inner_loop r1 rs' rows1 (ticked k)
          else inner_loop r1 rs' rows (ticked k)
  end.

(** Lines 460-498. *)
Fixpoint outer_loop (rs : list nat) (rows : list row) (k : nat) : res (list row * nat) :=
  match rs with
  | [] => Ok (rows, k)
  | r1 :: rs' =>
      if late k then Ok (rows, ticked k)
      else
        let* a := getitem rows r1 in
        if r_gone_sp a then outer_loop rs' rows (ticked k)
        else
          let* (rows1, k1) := inner_loop r1 (seq (r1 + 1) (length rows - (r1 + 1))) rows (ticked k) in
          outer_loop rs' rows1 k1
  end.
End Quadratic.

(** preprocess, lines 400-502.  [clk 0] is t_start.  No rows: line 454 divides by zero. *)
Definition preprocess (nodes : list node) (splits : list split) (X : list sample) (y : list nat) (depth : nat) (aggressive : bool)
    (time_limit : Q) (clk : nat -> Q) : res (list node * list row) :=
  let nodes1 := preprocess_nodes depth nodes in
  let* rows := map_res (exp_row nodes1 splits y) (seq 0 (length X)) in
  if length X =? 0 then Err ZeroDivisionError
  else if aggressive then
    let* (rows1, _) := outer_loop nodes1 y time_limit clk (clk 0) (seq 0 (length X)) rows 1 in
    Ok (nodes1, rows1)
  else Ok (nodes1, rows).

(** * The whole preparation, main, lines 134-289 *)

(** Lines 159-171 and 191-210: one CART tree is added to the dictionaries. *)
Definition add_cart (count : nat) (c : cart) (sn : registry * ndict) : res (registry * ndict) :=
  let* is_leaves := get_is_leaves (ct_count c) (ct_left c) (ct_right c) in
  let* d := get_all_splits (ct_count c) c is_leaves in
  let d1 := merge_all_splits (fst sn) d in
  let* ns := get_all_nodes c (ct_count c) is_leaves d1 in
  let* nodes := merge_all_nodes count (snd sn) ns in
  Ok (d1, nodes).

(** np.unique(y_train), line 280: the classes in increasing order. *)
Definition unique_classes (y : list nat) : list Z := map Z.of_nat (filter (fun t => memb t y) (seq 0 (S (list_max y)))).

(** Results: paths, leaves, nodes, splits, rows.  [carts], [final], [extra]: the CART trees of lines 149-171, 174-210 and
    235-259 (the time limit decides how many there are).  Depth 0: line 146 divides by zero. *)
Definition prepare (depth : nat) (carts : list cart) (final : cart) (extra : list cart) (X : list sample) (y : list nat)
    (aggressive : bool) (time_limit : Q) (clk : nat -> Q) : res (list path * list leaf * list node * list split * list row) :=
  if depth =? 0 then Err ZeroDivisionError
  else
    let q_root := 150 / (2 ^ depth - 1) in
    let q_node := 100 / (2 ^ depth - 1) in
    let* sn := for_each carts (add_cart 1) ([], empty_nodes depth) in
    let* (d, nodes0) := add_cart 1000 final sn in
    let* splits := get_splits_list d in
    let* nodes1 := fill_nodes depth nodes0 in
    let* (leaves, paths) := get_all_leaves_paths nodes1 depth splits X y in
    let* nodes2 := by_id en_id nodes1 in
    let* (nodes3, splits1) := reduce_splits nodes2 splits q_root q_node in
    let* paths1 := for_each extra
      (fun c paths =>
         let* is_leaves := get_is_leaves (ct_count c) (ct_left c) (ct_right c) in
         let* tree_nodes := get_all_nodes c (ct_count c) is_leaves d in
         add_tree_paths leaves tree_nodes depth splits1 X y paths) paths in
    let* splits2 := add_rows_to_splits splits1 X in
    let* (nodes4, rows) := preprocess (map plain_node nodes3) splits2 X y depth aggressive time_limit clk in
    Ok (paths1, leaves, nodes4, splits2, rows).

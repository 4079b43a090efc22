(** Vocabulary for solutions of the tree master problem. *)
From Verif Require Import Base Lp TreeModel SpecTree SpecTreeRun.
Open Scope nat_scope.

(** [x] is non-negative and meets the leaf and the consistency constraints (not necessarily those for rows and cuts). *)
Definition meets_tree_constraints (kinds : list ckind) (m : lp) (x : nat -> Q) : Prop :=
  (forall j, j < num_vars m -> (0 <= x j)%Q) /\
  (forall i c k, nth_error kinds i = Some c -> nth_error (lp_cons m) i = Some k ->
     match c with KLeaf _ | KChoice _ _ _ => True | _ => False end -> in_bounds (c_lb k) (c_ub k) (activity m k x)).
Definition integral (m : lp) (x : nat -> Q) : Prop := forall j, j < num_vars m -> exists z : Z, (x j == inject_Z z)%Q.

(** All paths are paths of the complete tree with candidate splits. *)
Definition proper_paths (u : setup) (paths : list path) : Prop :=
  Forall (fun p => tree_path (su_depth u) (su_splits u) p /\ uses_candidates (su_nodes u) p) paths.

(** The class a set of paths assigns to a leaf. *)
Definition leaf_target (sel : list path) (l : nat) : Z :=
  match find (fun p => p_leaf p =? l) sel with Some p => p_target p | None => 0%Z end.

(** Paths [sel] form decision tree [tree] with candidate splits: one path for every leaf, all agreeing with it. *)
Definition forms_tree (u : setup) (tree : nat -> nat) (sel : list path) : Prop :=
  tree_over (su_depth u) (su_nodes u) tree /\ Permutation (map p_leaf sel) (seq 0 (2 ^ su_depth u)) /\ Forall (agrees tree) sel.

(** The cost of path [p] is the total weight of the training rows that follow it and have its class. *)
Definition counts_rows (u : setup) (w : nat -> Q) (p : path) : Prop :=
  exists rs, NoDup rs /\ (p_cost p == qsum w rs)%Q /\
    forall r, In r rs <-> exists c, nth_error (su_y u) r = Some c /\ p_target p = Z.of_nat c /\
                                    covers (su_X u) (su_leaves u) (su_splits u) (KRow r) p.
(** [v] is the total weight of the training rows whose class is the one [code] predicts. *)
Definition correct_weight (u : setup) (w : nat -> Q) (code : sample -> Z) (v : Q) : Prop :=
  exists rs, NoDup rs /\ (v == qsum w rs)%Q /\
    forall r, In r rs <-> exists x c, nth_error (su_X u) r = Some x /\ nth_error (su_y u) r = Some c /\ code x = Z.of_nat c.

(** Leaf [l] can be reached by a row that goes left at the splits [left_split]: candidate splits can be chosen at the nodes
    above the leaf so that the row walks to it. *)
Definition reachable (d : nat) (nodes : list node) (left_split : nat -> bool) (l : nat) : Prop :=
  l < 2 ^ d /\
  exists tree, (forall n nd, below n (leaf_pos d l) -> nth_error nodes n = Some nd -> In (tree n) (n_cands nd)) /\
               leaf_reached d (fun n => left_split (tree n)) = l.

(** Reduced cost of path [p] for duals [pi] of the constraints [kinds]: its cost minus the duals of the constraints it takes
    part in. *)
Definition path_price (u : setup) (kinds : list ckind) (pi : nat -> Q) (p : path) (v : Q) : Prop :=
  exists cs, NoDup cs /\
    (forall i, In i cs <-> exists c, nth_error kinds i = Some c /\ covers (su_X u) (su_leaves u) (su_splits u) c p) /\
    (v == p_cost p - qsum pi cs)%Q.

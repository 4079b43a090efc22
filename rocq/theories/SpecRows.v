(** What preprocessing records about a training row (statement side only). *)
From Verif Require Import Base TreeModel SpecTree SpecTreeRun SpecTreeLp ExpModel SpecExp.
Open Scope nat_scope.

(** Candidate splits can be chosen at the nodes above node [n] so that a row that goes left at the splits [left_split] walks to [n]. *)
Definition can_visit (nodes : list node) (left_split : nat -> bool) (n : nat) : Prop :=
  exists j tree, (forall m nd, below m n -> m <> n -> nth_error nodes m = Some nd -> In (tree m) (n_cands nd)) /\
    route j (fun m => left_split (tree m)) 0 = n.
(** The record [b] of sample [x]: the splits at which it goes left and right, the nodes and leaves it can reach. *)
Record describes (u : setup) (x : sample) (b : row) : Prop := {
  ds_left : forall k, In k (r_left b) <-> exists s, nth_error (su_splits u) k = Some s /\ (nth (s_feature s) x 0 <= s_threshold s)%Q;
  ds_right : forall k, In k (r_right b) <-> exists s, nth_error (su_splits u) k = Some s /\ (s_threshold s < nth (s_feature s) x 0)%Q;
  ds_nodes : forall n, In n (r_nodes b) <-> n < 2 ^ su_depth u - 1 /\ can_visit (su_nodes u) (goes_left (su_splits u) x) n;
  ds_distinct : NoDup (r_leaves b);
  ds_leaves : forall l, In l (r_leaves b) <-> reachable (su_depth u) (su_nodes u) (goes_left (su_splits u) x) l
}.
(** Parent and children of an inner node: [nd] is node [i] with these filled in; the children of a bottom node are leaf numbers. *)
Definition linked (d i : nat) (nd : node) : Prop :=
  n_id nd = i /\ (n_bottom nd = true <-> 2 ^ d - 1 <= 2 * i + 1) /\
  (if n_bottom nd then leaf_pos d (n_lchild nd) = 2 * i + 1 /\ leaf_pos d (n_rchild nd) = 2 * i + 2
   else n_lchild nd = 2 * i + 1 /\ n_rchild nd = 2 * i + 2) /\
  (i = 0 -> n_parent nd = None) /\ (0 < i -> exists p, n_parent nd = Some p /\ (i = 2 * p + 1 \/ i = 2 * p + 2)).

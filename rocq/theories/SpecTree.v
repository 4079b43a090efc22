(** Independent vocabulary for the decision tree claims: the complete binary tree in heap numbering, which samples follow
    which path, and the path formulation of the training problem. *)
From Verif Require Import Base Lp TreeModel.
Open Scope nat_scope.

(** * The complete binary tree *)

(** Heap numbering: the root is 0, node [i] has the left child [2*i+1] and the right child [2*i+2].  In the tree of depth
    [d] the inner nodes are 0 .. 2^d-2 and leaf [l] is at position 2^d-1+l. *)
Definition leaf_pos (d l : nat) : nat := 2 ^ d - 1 + l.

(** [below a b]: position [b] is in the subtree with root [a]. *)
Inductive below : nat -> nat -> Prop :=
| below_self a : below a a
| below_left a b : below (2 * a + 1) b -> below a b
| below_right a b : below (2 * a + 2) b -> below a b.

(** Walk [d] steps down from position [i], going left at node [n] iff [left_at n]. *)
Fixpoint route (d : nat) (left_at : nat -> bool) (i : nat) : nat :=
  match d with
  | O => i
  | S d' => route d' left_at (if left_at i then 2 * i + 1 else 2 * i + 2)
  end.
(** The leaf reached from the root. *)
Definition leaf_reached (d : nat) (left_at : nat -> bool) : nat := route d left_at 0 - (2 ^ d - 1).

(** The leaves and nodes of the complete tree of depth [d], as the classifier expects them. *)
Definition complete_leaves (d : nat) : list leaf := map (fun l => create_leaf l d) (seq 0 (2 ^ d)).
Definition complete_nodes (d : nat) (nodes : list node) : Prop :=
  length nodes = 2 ^ d - 1 /\ forall i n, nth_error nodes i = Some n -> n_id n = i.

(** * Samples and paths *)

(** A sample goes left at a split iff its feature value is at most the threshold. *)
Definition sample_left (x : sample) (s : split) : bool := Qle_bool (nth (s_feature s) x 0%Q) (s_threshold s).
(** The same for the split with number [k]. *)
Definition goes_left (splits : list split) (x : sample) (k : nat) : bool :=
  match nth_error splits k with Some s => sample_left x s | None => false end.
(** The sample has all features the splits ask for. *)
Definition fits (splits : list split) (x : sample) : Prop := forall s, In s splits -> s_feature s < length x.

(** The (node, split) choices of a path. *)
Definition choices (p : path) : list (nat * nat) := combine (p_nodes p) (p_splits p).
(** A (real or artificial) row that goes left exactly at the splits [left_split] follows a path to leaf [lf] iff at every
    node of the path it takes the branch towards the leaf. *)
Definition follows (lf : leaf) (left_split : nat -> bool) (p : path) : Prop :=
  forall n k, In (n, k) (choices p) -> (left_split k = true <-> In n (l_left lf)).

(** A path with [d] choices, one for each node above its leaf in the complete tree of depth [d], made of known splits. *)
Definition tree_path (d : nat) (splits : list split) (p : path) : Prop :=
  p_leaf p < 2 ^ d /\
  Permutation (p_nodes p) (l_left (create_leaf (p_leaf p) d) ++ l_right (create_leaf (p_leaf p) d)) /\
  length (p_splits p) = d /\
  Forall (fun k => k < length splits) (p_splits p).
(** ... that uses only candidate splits of its nodes. *)
Definition uses_candidates (nodes : list node) (p : path) : Prop :=
  forall n k, In (n, k) (choices p) -> exists nd, nth_error nodes n = Some nd /\ In k (n_cands nd).

(** A decision tree assigns a split to every inner node; a path belongs to it iff its choices agree with it. *)
Definition agrees (tree : nat -> nat) (p : path) : Prop := forall n k, In (n, k) (choices p) -> k = tree n.
(** The leaf a sample reaches in a decision tree. *)
Definition tree_leaf (d : nat) (splits : list split) (tree : nat -> nat) (x : sample) : nat :=
  leaf_reached d (fun n => goes_left splits x (tree n)).
Definition tree_over (d : nat) (nodes : list node) (tree : nat -> nat) : Prop :=
  forall n nd, n < 2 ^ d - 1 -> nth_error nodes n = Some nd -> In (tree n) (n_cands nd).

(** The splits know their rows: what examples/dtree_experiment.py:add_rows_to_splits records. *)
Definition rows_recorded (X : list sample) (splits : list split) : Prop :=
  forall s, In s splits ->
    (forall r, In r (s_lrows s) <-> exists x, nth_error X r = Some x /\ sample_left x s = true) /\
    (forall r, In r (s_rrows s) <-> exists x, nth_error X r = Some x /\ sample_left x s = false).

(** * The path formulation *)

(** The constraints of the training problem: one path per leaf; at most one path per training row; exactly one path per
    artificial row [z] (the row goes left at split [k] iff [nth k z false]); split [k] is used at node [n] by the path of
    leaf [l] iff the tree uses it there. *)
Inductive ckind :=
| KLeaf (l : nat)
| KRow (r : nat)
| KCut (z : list bool)
| KChoice (l n k : nat).

Definition kind_bounds (c : ckind) : option Q * option Q :=
  match c with
  | KLeaf _ | KCut _ => (Some 1%Q, Some 1%Q)
  | KRow _ => (None, Some 1%Q)
  | KChoice _ _ _ => (Some 0%Q, Some 0%Q)
  end.

(** Does path [p] take part in the constraint? *)
Definition covers (X : list sample) (leaves : list leaf) (splits : list split) (c : ckind) (p : path) : Prop :=
  match c with
  | KLeaf l => p_leaf p = l
  | KRow r => exists x lf, nth_error X r = Some x /\ nth_error leaves (p_leaf p) = Some lf /\
                           follows lf (goes_left splits x) p
  | KCut z => exists lf, nth_error leaves (p_leaf p) = Some lf /\ follows lf (fun k => nth k z false) p
  | KChoice l n k => p_leaf p = l /\ In (n, k) (choices p)
  end.

(** Solver model [m] is the path formulation for the given paths, row constraints and artificial rows.  [kinds] tells
    what each constraint is, [cv n k] is the variable "node n uses split k". *)
Record formulation (X : list sample) (leaves : list leaf) (nodes : list node) (splits : list split)
    (paths : list path) (rows : list nat) (cuts : list (list bool)) (kinds : list ckind) (cv : nat -> nat -> nat)
    (m : lp) : Prop := {
  (* all variables are non-negative integers: one per path, one per (node, candidate split) *)
  fm_vars : forall v, In v (lp_vars m) -> v = mkVar (Some 0%Q) None true;
  fm_path_ids : NoDup (map p_id paths);
  fm_path_vars : forall p, In p paths -> p_id p < num_vars m;
  fm_choice_vars : forall l n k, In (KChoice l n k) kinds -> cv n k < num_vars m /\ ~ In (cv n k) (map p_id paths);
  fm_choice_inj : forall l n k l' n' k', In (KChoice l n k) kinds -> In (KChoice l' n' k') kinds ->
    cv n k = cv n' k' -> n = n' /\ k = k';
  fm_all_vars : forall j, j < num_vars m ->
    (exists p, In p paths /\ j = p_id p) \/ (exists l n k, In (KChoice l n k) kinds /\ j = cv n k);
  (* maximise the total cost of the paths *)
  fm_max : lp_max m = true;
  fm_offset : (lp_off m == 0)%Q;
  fm_cost : forall p, In p paths -> (lp_obj m (p_id p) == p_cost p)%Q;
  fm_choice_cost : forall l n k, In (KChoice l n k) kinds -> (lp_obj m (cv n k) == 0)%Q;
  (* coefficient 1 for exactly the paths that take part, -1 for the choice variable of a choice constraint *)
  fm_cons : Forall2 (fun c k =>
      (c_lb k, c_ub k) = kind_bounds c /\
      (forall p, In p paths -> (covers X leaves splits c p -> (c_coef k (p_id p) == 1)%Q) /\
                               (~ covers X leaves splits c p -> (c_coef k (p_id p) == 0)%Q)) /\
      (forall l n s, In (KChoice l n s) kinds ->
         (c_coef k (cv n s) == match c with
                               | KChoice _ n' s' => if (n' =? n) && (s' =? s) then -1 else 0
                               | _ => 0
                               end)%Q)) kinds (lp_cons m);
  (* which constraints there are, each once (a cut may be repeated) *)
  fm_leaves : forall l, In (KLeaf l) kinds <-> l < length leaves;
  fm_rows : forall r, In (KRow r) kinds <-> In r rows;
  fm_cuts : forall z, In (KCut z) kinds <-> In z cuts;
  fm_choices : forall l n k, In (KChoice l n k) kinds <->
    exists lf nd, nth_error leaves l = Some lf /\ In n (l_left lf ++ l_right lf) /\
                  nth_error nodes n = Some nd /\ In k (n_cands nd);
  fm_once : forall c i j, nth_error kinds i = Some c -> nth_error kinds j = Some c ->
    (match c with KCut _ => False | _ => True end) -> i = j
}.

(** * Well-formed training problems *)

(** Arguments of the classifier for the complete tree of depth [d] and training data [X]. *)
Record wf_tree (d : nat) (X : list sample) (nodes : list node) (splits : list split) : Prop := {
  wt_depth : 1 <= d;
  wt_rows : 0 < length X;
  wt_nodes : complete_nodes d nodes;
  wt_cands : forall n, In n nodes -> NoDup (n_cands n) /\ Forall (fun k => k < length splits) (n_cands n);
  wt_ids : forall k s, nth_error splits k = Some s -> s_id s = k;
  wt_distinct : forall i j s t, nth_error splits i = Some s -> nth_error splits j = Some t -> i <> j ->
    s_feature s = s_feature t -> ~ (s_threshold s == s_threshold t)%Q;
  wt_fits : Forall (fits splits) X;
  wt_recorded : rows_recorded X splits;
  wt_fresh : forall s, In s splits -> s_lcuts s = [] /\ s_rcuts s = []
}.

(** A path the constructor accepts (2462-2472) for depth [d]. *)
Definition plain_path (d : nat) (splits : list split) (p : path) : Prop :=
  p_leaf p < 2 ^ d /\ length (p_nodes p) = d /\ length (p_splits p) = d /\ Forall (fun k => k < length splits) (p_splits p).

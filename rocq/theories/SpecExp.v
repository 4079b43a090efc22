(** Vocabulary for the preparation of a tree experiment (statement side only). *)
From Coq Require Import Sorted.
From Verif Require Import Base Lp TreeModel ExpModel SpecTree SpecTreeRun SpecTreeLp.
Open Scope nat_scope.

(** * CART trees given by arrays *)

(** Node [i] has two different children, i.e. is not a leaf. *)
Definition inner (c : cart) (i : nat) : Prop :=
  exists a b, nth_error (ct_left c) i = Some a /\ nth_error (ct_right c) i = Some b /\ a <> b.
(** [j] is the left ([side = true]) or right child of [i]. *)
Definition cart_child (c : cart) (i : nat) (side : bool) (j : nat) : Prop :=
  inner c i /\ nth_error (if side then ct_left c else ct_right c) i = Some (Z.of_nat j).
(** Arrays of the same length; children have larger numbers than their parent; every node but 0 has exactly one parent. *)
Record cart_ok (c : cart) : Prop := {
  ck_some : 0 < ct_count c;
  ck_right : length (ct_right c) = ct_count c;
  ck_feature : length (ct_feature c) = ct_count c;
  ck_threshold : length (ct_threshold c) = ct_count c;
  ck_child : forall i side, inner c i -> exists j, cart_child c i side j;
  ck_later : forall i side j, cart_child c i side j -> i < j /\ j < ct_count c;
  ck_parent : forall j, 0 < j -> j < ct_count c -> exists i side, cart_child c i side j;
  ck_unique : forall i i' side side' j, cart_child c i side j -> cart_child c i' side' j -> i = i' /\ side = side'
}.
(** CART node [i] is at position [h] in heap numbering. *)
Inductive positioned (c : cart) : nat -> nat -> Prop :=
| at_root : positioned c 0 0
| at_left i j h : positioned c i h -> cart_child c i true j -> positioned c j (2 * h + 1)
| at_right i j h : positioned c i h -> cart_child c i false j -> positioned c j (2 * h + 2).
(** The test of inner node [i]. *)
Definition cart_test (c : cart) (i f : nat) (t : Q) : Prop :=
  inner c i /\ nth_error (ct_feature c) i = Some f /\ nth_error (ct_threshold c) i = Some t.
(** After [k] tests from the root, sample [x] is at node [i]. *)
Inductive descends (c : cart) (x : sample) : nat -> nat -> Prop :=
| ds_root : descends c x 0 0
| ds_step k i f t j : descends c x k i -> cart_test c i f t -> cart_child c i (Qle_bool (nth f x 0%Q) t) j -> descends c x (S k) j.

(** * Registries of splits *)

Definition has_key (d : registry) (f : nat) (t : Q) : Prop := exists t' s, In ((f, t'), s) d /\ (t' == t)%Q.
(** The split with number [k] is a new split with id [k] that tests its key; all keys differ. *)
Definition good_registry (d : registry) : Prop :=
  (forall k f t s, nth_error d k = Some ((f, t), s) -> s = mkSplit k f t false [] [] [] []) /\
  (forall i j f t t' s s', nth_error d i = Some ((f, t), s) -> nth_error d j = Some ((f, t'), s') -> (t == t')%Q -> i = j).

(** [nd] is the node for CART node [i] at position [h]: its only candidate, chosen once, is the registered split [k] with the
    test of [i]. *)
Definition node_for (c : cart) (d : registry) (i h : nat) (nd : enode) : Prop :=
  exists f t k t' s, cart_test c i f t /\ nth_error d k = Some ((f, t'), s) /\ (t' == t)%Q /\ nd = mkEn h [k] [1] (Some k).
(** The last split of the node with id [n]. *)
Definition last_split (ns : ndict) (n : nat) : nat :=
  match assoc Nat.eqb ns n with Some nd => match en_last nd with Some k => k | None => 0 end | None => 0 end.

(** * Split reduction *)

(** The candidates of a node with their counts. *)
Definition counted_cands (nd : enode) : list (nat * nat) := combine (en_counts nd) (en_cands nd).
(** One count per candidate, no candidate twice. *)
Definition counts_ok (nd : enode) : Prop := length (en_counts nd) = length (en_cands nd) /\ NoDup (en_cands nd).
(** More frequent, or equally frequent with the larger id. *)
Definition beats (a b : nat * nat) : Prop := fst b < fst a \/ (fst a = fst b /\ snd b < snd a).
(** [nd'] keeps the best [q] candidates of [nd], best first. *)
Record keeps_best (q : nat) (nd nd' : enode) : Prop := {
  kb_id : en_id nd' = en_id nd;
  kb_last : en_last nd' = en_last nd;
  kb_length : length (en_cands nd') = Nat.min q (length (en_cands nd));
  kb_counts : length (en_counts nd') = length (en_cands nd');
  kb_old : incl (counted_cands nd') (counted_cands nd);
  kb_order : StronglySorted beats (counted_cands nd');
  kb_best : forall a b, In a (counted_cands nd') -> In b (counted_cands nd) -> ~ In b (counted_cands nd') -> beats a b
}.

(** * Initial paths *)

(** [rs] are the training rows of class [t] that follow path [p]. *)
Definition class_rows (depth : nat) (X : list sample) (y : list nat) (splits : list split) (p : path) (t : nat) (rs : list nat) : Prop :=
  NoDup rs /\ forall r, In r rs <-> nth_error y r = Some t /\ covers X (complete_leaves depth) splits (KRow r) p.
(** The target of [p] is a most frequent class among the rows that follow it; its cost is the number of these rows. *)
Definition majority_path (depth : nat) (X : list sample) (y : list nat) (splits : list split) (p : path) : Prop :=
  exists t rs, p_target p = Z.of_nat t /\ In t y /\ class_rows depth X y splits p t rs /\
    (p_cost p == inject_Z (Z.of_nat (length rs)))%Q /\
    forall t' rs', class_rows depth X y splits p t' rs' -> length rs' <= length rs.
(** The nodes of the path to leaf [l] are the inner nodes above it, bottom up. *)
Definition above (depth l : nat) (ns : list nat) : Prop :=
  StronglySorted gt ns /\ forall n, In n ns <-> below n (leaf_pos depth l) /\ n <> leaf_pos depth l.
(** Every node of the complete tree has a last split, one of [n] splits. *)
Definition has_last (d n : nat) (nodes : ndict) : Prop :=
  forall i, i < 2 ^ d - 1 -> exists nd k, assoc Nat.eqb nodes i = Some nd /\ en_last nd = Some k /\ k < n.

(** [d] results from merging the splits of the trees [cs] one after the other. *)
Inductive merged_trees : list cart -> registry -> Prop :=
| mt_none : merged_trees [] []
| mt_next cs d c ls e : merged_trees cs d -> get_is_leaves (ct_count c) (ct_left c) (ct_right c) = Ok ls ->
    get_all_splits (ct_count c) c ls = Ok e -> merged_trees (cs ++ [c]) (merge_all_splits d e).

(** * Rows *)

(** Training rows [i] and [j] follow the same paths (made of candidate splits). *)
Definition same_way (d : nat) (X : list sample) (nodes : list node) (splits : list split) (i j : nat) : Prop :=
  forall p, tree_path d splits p -> uses_candidates nodes p ->
    (covers X (complete_leaves d) splits (KRow i) p <-> covers X (complete_leaves d) splits (KRow j) p).
(** Row [r] can reach at most two leaves. *)
Definition few_leaves (d : nat) (X : list sample) (nodes : list node) (splits : list split) (r : nat) : Prop :=
  exists xr R, nth_error X r = Some xr /\ length R <= 2 /\ forall l, reachable d nodes (goes_left splits xr) l -> In l R.
(** The setup with given rows. *)
Definition with_rows (u : setup) (rows : option (list row)) : setup :=
  mkSetup (su_depth u) (su_X u) (su_y u) (su_nodes u) (su_splits u) (su_paths u) (su_beta u) (su_gen u) (su_rounds u) rows.
(** [u'] is the setup after preprocess: the nodes with their parents and children filled in, and the data rows. *)
Definition preprocessed (u : setup) (aggressive : bool) (time_limit : Q) (clk : nat -> Q) (u' : setup) : Prop :=
  exists nodes rows, preprocess (su_nodes u) (su_splits u) (su_X u) (su_y u) (su_depth u) aggressive time_limit clk = Ok (nodes, rows) /\
    u' = mkSetup (su_depth u) (su_X u) (su_y u) nodes (su_splits u) (su_paths u) (su_beta u) (su_gen u) (su_rounds u) (Some rows).
(** The clock does not go back. *)
Definition steady (clk : nat -> Q) : Prop := forall j k, j <= k -> (clk j <= clk k)%Q.

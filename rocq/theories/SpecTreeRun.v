(** Vocabulary for histories of the tree master problem: sequences of calls, growing solver models, reported duals. *)
From Verif Require Import Base Lp TreeModel SpecTree.
Open Scope nat_scope.

(** Calls on a generated master problem.  [Store x] is store_lp_solution after an optimal solve with solution [x];
    [Generate] is a further generate_mp call (line 622 makes it a no-op). *)
Inductive mop :=
| Column (p : path)
| RowCuts
| Cuts (solutions : cutmodel -> list Z -> list ((nat -> bool) * (nat -> bool)))
| Store (x : nat -> Q)
| Solve (sv : tsolvers)
| Select (answer : option (nat -> Q))
| Generate (X : list sample) (y : list nat).

(** One call: the cuts it reports and the new state. *)
Definition do_op (o : mop) (s : tmaster) : res (list (list bool) * tmaster) :=
  match o with
  | Column p => let* (_, s1) := add_column p s in Ok ([], s1)
  | RowCuts => let* (_, s1) := add_beta_cuts s in Ok ([], s1)
  | Cuts sols => add_cuts sols s
  | Store x => Ok ([], store_lp_solution x s)
  | Solve sv => let* (duals, s1) := solve_rmp sv s in Ok (d_new_cuts duals, s1)
  | Select ans => let* (_, s1) := solve_ip ans s in Ok ([], s1)
  | Generate X y => let* s1 := generate_mp X y s in Ok ([], s1)
  end.
Fixpoint run_ops (ops : list mop) (s : tmaster) : res (list (list bool) * tmaster) :=
  match ops with
  | [] => Ok ([], s)
  | o :: ops' => let* (c1, s1) := do_op o s in let* (c2, s2) := run_ops ops' s1 in Ok (c1 ++ c2, s2)
  end.
Definition columns (ops : list mop) : list path := flat_map (fun o => match o with Column p => [p] | _ => [] end) ops.

(** The CP-SAT solver reports only solutions of the model it is given. *)
Definition sound_cuts (sols : cutmodel -> list Z -> list ((nat -> bool) * (nat -> bool))) : Prop :=
  forall cm objective, Forall (cut_solution cm) (sols cm objective).
Definition sound_solvers (sv : tsolvers) : Prop := forall n, sound_cuts (tv_cuts sv n).
(** Columns are paths of the tree, CP-SAT is sound. *)
Definition legal (d : nat) (splits : list split) (o : mop) : Prop :=
  match o with
  | Column p => plain_path d splits p
  | Cuts sols => sound_cuts sols
  | Solve sv => sound_solvers sv
  | _ => True
  end.

(** Rows given by the caller: one per sample, no paths recorded yet. *)
Definition unused_rows (X : list sample) (rows : option (list row)) : Prop :=
  match rows with None => True | Some l => length l = length X /\ Forall (fun r => r_paths r = []) l end.

(** Solver model [m'] is [m] with the further constraints [new]. *)
Definition with_new_cons (m m' : lp) (new : list lpcon) : Prop :=
  lp_vars m' = lp_vars m /\ (forall j, lp_obj m' j == lp_obj m j)%Q /\ (lp_off m' == lp_off m)%Q /\ lp_max m' = lp_max m /\
  exists old, lp_cons m' = old ++ new /\ Forall2 same_con (lp_cons m) old.
(** The constraint's value at [x] is not 1, by more than the tolerance. *)
Definition off_one (m : lp) (x : nat -> Q) (k : lpcon) : Prop := (teps < Qabs (activity m k x - 1))%Q.

(** [m'] results from [m] by [n] rounds: the LP solver reports an optimal solution [x] of the current model, then
    constraints that [x] does not meet with equality are added. *)
Inductive strengthened (sv : tsolvers) : nat -> lp -> lp -> Prop :=
| st_done m m' : with_new_cons m m' [] -> strengthened sv 0 m m'
| st_round n m m1 m2 i x pi new : tv_lp sv i m = Some (x, pi) -> with_new_cons m m1 new -> new <> [] ->
    Forall (off_one m1 x) new -> strengthened sv n m1 m2 -> strengthened sv (S n) m m2.

(** The reported duals are the duals [pi] of the constraints: leaves in order; rows in order, 0 for rows without
    constraint; (leaf, node, split) choices; cuts in order of their number, [pos] being their places in the model. *)
Record reports (n_leaves n_rows : nat) (kinds : list ckind) (cuts : list (list bool)) (pos : list nat) (pi : nat -> Q)
    (dl : tduals) : Prop := {
  rp_leaves : length (d_leaf dl) = n_leaves;
  rp_leaf : forall l i, nth_error kinds i = Some (KLeaf l) -> nth_error (d_leaf dl) l = Some (pi i);
  rp_rows : length (d_row dl) = n_rows;
  rp_row : forall r i, nth_error kinds i = Some (KRow r) -> nth_error (d_row dl) r = Some (pi i);
  rp_row0 : forall r, r < n_rows -> ~ In (KRow r) kinds -> nth_error (d_row dl) r = Some 0%Q;
  rp_choice : forall l n k q, assoc key3_eqb (d_ns dl) (l, n, k) = Some q <->
    exists i, nth_error kinds i = Some (KChoice l n k) /\ q = pi i;
  rp_choice_keys : NoDup (map fst (d_ns dl));
  rp_cuts : d_cut dl = map pi pos;
  rp_pos : NoDup pos /\ Forall2 (fun i z => nth_error kinds i = Some (KCut z)) pos cuts;
  rp_all_cuts : forall i z, nth_error kinds i = Some (KCut z) -> In i pos
}.

(** * Histories *)

(** The arguments of a tree classifier: depth, training data, nodes, splits, initial paths, the cut options and the
    optional preprocessed rows. *)
Record setup := mkSetup {
  su_depth : nat;
  su_X : list sample;
  su_y : list nat;
  su_nodes : list node;
  su_splits : list split;
  su_paths : list path;
  su_beta : bool;
  su_gen : bool;
  su_rounds : nat;
  su_rows : option (list row)
}.
Definition su_leaves (u : setup) : list leaf := complete_leaves (su_depth u).
Definition valid_setup (u : setup) : Prop :=
  wf_tree (su_depth u) (su_X u) (su_nodes u) (su_splits u) /\
  Forall (plain_path (su_depth u) (su_splits u)) (su_paths u) /\ unused_rows (su_X u) (su_rows u).
(** State [s] is reached from the setup by generate_mp and the calls [ops]; [cuts] are the cuts reported on the way. *)
Definition after (u : setup) (ops : list mop) (cuts : list (list bool)) (s : tmaster) : Prop :=
  Forall (legal (su_depth u) (su_splits u)) ops /\
  exists s0, generate_mp (su_X u) (su_y u)
      (tmaster_init (su_paths u) (su_leaves u) (su_nodes u) (su_splits u) (su_beta u) (su_gen u) (su_rounds u) (su_rows u))
      = Ok s0 /\ run_ops ops s0 = Ok (cuts, s).
(** The solver model of [s] is the path formulation for the setup's data. *)
Definition formulated (u : setup) (rws : list nat) (cuts : list (list bool)) (kinds : list ckind) (cv : nat -> nat -> nat)
    (s : tmaster) : Prop :=
  formulation (su_X u) (su_leaves u) (su_nodes u) (su_splits u) (tm_paths s) rws cuts kinds cv (tm_lp s).
Definition solves (ops : list mop) : nat := length (filter (fun o => match o with Solve _ => true | _ => false end) ops).

(** [v] is the total of [x] over the paths that take part in constraint [c]. *)
Definition covered_sum (X : list sample) (leaves : list leaf) (splits : list split) (c : ckind) (paths : list path)
    (x : nat -> Q) (v : Q) : Prop :=
  exists ps, NoDup ps /\ (forall p, In p ps <-> In p paths /\ covers X leaves splits c p) /\
             (v == qsum (fun p => x (p_id p)) ps)%Q.

(** The paths with value 1 (all others have value 0) are the paths of decision tree [tree], one for each leaf. *)
Definition tree_solution (d : nat) (splits : list split) (tree : nat -> nat) (paths : list path) (x : nat -> Q) : Prop :=
  exists sel, incl sel paths /\ Permutation (map p_leaf sel) (seq 0 (2 ^ d)) /\ Forall (tree_path d splits) sel /\
    Forall (agrees tree) sel /\ (forall p, In p sel -> (x (p_id p) == 1)%Q) /\
    (forall p, In p paths -> ~ In p sel -> (x (p_id p) == 0)%Q).

(** Vocabulary for pricing: the reduced cost of a path in terms of the reported duals, and the weight of its rows. *)
From Verif Require Import Base Lp TreeModel SpecTree SpecTreeRun SpecTreeLp.
Open Scope nat_scope.

(** The weight of training row [r], and whether the subproblems look at the row. *)
Definition row_weight (u : setup) (r : nat) : nat :=
  match su_rows u with None => 1 | Some l => match nth_error l r with Some dr => r_weight dr | None => 0 end end.
Definition active (u : setup) (r : nat) : Prop :=
  match su_rows u with None => True | Some l => exists dr, nth_error l r = Some dr /\ r_gone_sp dr = false end.

(** One class label per row; the rows recorded in the splits are sets. *)
Definition valid_data (u : setup) : Prop :=
  length (su_y u) = length (su_X u) /\ Forall (fun s => NoDup (s_lrows s) /\ NoDup (s_rrows s)) (su_splits u).

(** [v] is the total weight of the active rows of class [t] that follow path [p]. *)
Definition class_weight (u : setup) (p : path) (t v : nat) : Prop :=
  exists rs, NoDup rs /\ v = nsum (row_weight u) rs /\
    forall r, In r rs <-> nth_error (su_y u) r = Some t /\ active u r /\ covers (su_X u) (su_leaves u) (su_splits u) (KRow r) p.

(** The cost of [p] is the largest weight of a class and its target is a class with that weight (-1 if the weight is 0). *)
Definition best_class (u : setup) (p : path) : Prop :=
  (forall t v, class_weight u p t v -> (inject_Z (Z.of_nat v) <= p_cost p)%Q) /\
  ((exists t v, p_target p = Z.of_nat t /\ class_weight u p t v /\ (p_cost p == inject_Z (Z.of_nat v))%Q /\ 0 < v) \/
   (p_target p = (-1)%Z /\ (p_cost p == 0)%Q)).

(** The reduced cost of [p] according to the reported duals: its cost minus the duals of its leaf, of the rows and cuts that
    follow it, and of its (node, split) choices. *)
Definition choice_dual (dl : tduals) (l : nat) (nk : nat * nat) : Q :=
  match assoc key3_eqb (d_ns dl) (l, fst nk, snd nk) with Some q => q | None => 0%Q end.
Definition reported_price (u : setup) (cuts : list (list bool)) (dl : tduals) (p : path) (v : Q) : Prop :=
  exists rs cs,
    NoDup rs /\ (forall r, In r rs <-> covers (su_X u) (su_leaves u) (su_splits u) (KRow r) p) /\
    NoDup cs /\ (forall c, In c cs <-> exists z, nth_error cuts c = Some z /\ covers (su_X u) (su_leaves u) (su_splits u) (KCut z) p) /\
    (v == p_cost p - nth (p_leaf p) (d_leaf dl) 0 - qsum (fun r => nth r (d_row dl) 0) rs - qsum (fun c => nth c (d_cut dl) 0) cs
          - qsum (choice_dual dl (p_leaf p)) (choices p))%Q.

(** A path the heuristic may return: a path of the complete tree with its nodes in the order of the leaf object, a candidate
    split for each, no split twice, the best class, and a reduced cost above the tolerance. *)
Record offered (u : setup) (cuts : list (list bool)) (dl : tduals) (p : path) : Prop := {
  of_leaf : p_leaf p < 2 ^ su_depth u;
  of_nodes : p_nodes p = l_left (create_leaf (p_leaf p) (su_depth u)) ++ l_right (create_leaf (p_leaf p) (su_depth u));
  of_length : length (p_splits p) = length (p_nodes p);
  of_candidates : uses_candidates (su_nodes u) p;
  of_once : NoDup (p_splits p);
  of_class : best_class u p;
  of_price : exists v, reported_price u cuts dl p v /\ (teps < v)%Q
}.

(** After the calls [ops] solve_rmp returned the duals [dl]; its last answer was optimal, with solution [x] and duals [pi]. *)
Definition solved (u : setup) (ops : list mop) (cuts : list (list bool)) (sv : tsolvers) (dl : tduals) (s : tmaster)
    (x pi : nat -> Q) : Prop :=
  exists s0 old, after u ops old s0 /\ sound_solvers sv /\ solve_rmp sv s0 = Ok (dl, s) /\ cuts = old ++ d_new_cuts dl /\
                 tm_answer s = Some (x, pi).

(** Specification of the decision tree estimator as a whole (statement side only). *)
From Verif Require Import Base Lp TreeModel TreeFitModel.
Open Scope nat_scope.

(** Ids are 0, 1, 2, ... in order. *)
Definition in_sequence (ids : list nat) : Prop := forall k, k < length ids -> nth_error ids k = Some k.

(** Initial path [p] is made of the given objects and is as long as the tree is deep. *)
Definition made_of (A : targs) (p : path) : Prop :=
  In (p_leaf p) (map l_id (ta_leaves A))
  /\ (forall n, In n (p_nodes p) -> In n (map n_id (ta_nodes A)))
  /\ (forall q, In q (p_splits p) -> In q (map s_id (ta_splits A)))
  /\ In (p_target p) (ta_targets A)
  /\ length (p_nodes p) = ta_depth A
  /\ length (p_splits p) = ta_depth A.

Definition constructible (A : targs) : Prop :=
  in_sequence (map n_id (ta_nodes A)) /\ in_sequence (map l_id (ta_leaves A)) /\ Forall (made_of A) (ta_paths A).

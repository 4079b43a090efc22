(** Vocabulary for the completeness of cut generation (C76). *)
From Verif Require Import Base Lp TreeModel SpecTree SpecTreeRun.
Open Scope nat_scope.

(** The value CP-SAT maximises: the integer coefficients of the path variables that are true. *)
Definition cut_value (objective : list Z) (p : nat -> bool) : Q :=
  qsum (fun i => if p i then inject_Z (nth i objective 0%Z) else 0%Q) (seq 0 (length objective)).
(** CP-SAT solves the model to optimality: one of the solutions it reports has the highest value among all solutions. *)
Definition optimal_for (cm : cutmodel) (sols : cutmodel -> list Z -> list ((nat -> bool) * (nat -> bool))) : Prop :=
  forall objective, length objective = length (cm_paths cm) -> exists pz, In pz (sols cm objective) /\
    forall pz', cut_solution cm pz' -> (cut_value objective (fst pz') <= cut_value objective (fst pz))%Q.

(** A possible row of data, described by the splits where it goes left: a row below a threshold is below every higher threshold
    for the same feature. *)
Definition possible (splits : list split) (z : nat -> bool) : Prop :=
  forall i j s t, nth_error splits i = Some s -> nth_error splits j = Some t -> s_feature s = s_feature t ->
    (s_threshold s < s_threshold t)%Q -> z i = true -> z j = true.

(** [v] is the total LP value of the paths that the row [z] follows. *)
Definition path_weight (u : setup) (z : nat -> bool) (paths : list path) (x : nat -> Q) (v : Q) : Prop :=
  exists ps, NoDup ps /\
    (forall p, In p ps <-> In p paths /\ exists lf, nth_error (su_leaves u) (p_leaf p) = Some lf /\ follows lf z p) /\
    (v == qsum (fun p => x (p_id p)) ps)%Q.

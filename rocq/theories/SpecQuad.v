(** Aggressive preprocessing that is not interrupted (statement side only). *)
From Verif Require Import Base TreeModel SpecTreeRun ExpModel SpecExp.
Open Scope nat_scope.

(** There is no time limit, or the clock never shows more than the limit since the first look at it. *)
Definition uninterrupted (limit : Q) (clk : nat -> Q) : Prop := (limit <= 0)%Q \/ forall k, (clk k - clk 0%nat <= limit)%Q.
(** Row [r] has its constraint in the master problem. *)
Definition in_master (u : setup) (r : nat) : Prop :=
  match su_rows u with None => True | Some l => exists b, nth_error l r = Some b /\ r_gone b = false end.
(** From this number of training rows on the script preprocesses aggressively (examples/dtree_experiment.py:130). *)
Definition large : nat := 5000.

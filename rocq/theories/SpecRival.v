(** Specification for C92. *)
From Verif Require Import Base FitModel TreeModel TreePricingModel TreeFitModel.
Open Scope nat_scope.

(** Estimators [A] and [A'] build trees of the same depth from the same list of splits, and [A'] has at every node all the
    candidate splits that [A] has there. *)
Definition fewer_candidates (A A' : targs) : Prop :=
  ta_depth A = ta_depth A' /\ ta_splits A = ta_splits A' /\
  forall n nd', nth_error (ta_nodes A') n = Some nd' -> exists nd, nth_error (ta_nodes A) n = Some nd /\ incl (n_cands nd) (n_cands nd').

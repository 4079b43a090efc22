(** Properties of the decision tree estimator as a whole. *)
From Verif Require Import Base Lp FitModel TreeModel TreePricingModel TreeFitModel SpecTree SpecTreeLp SpecTreeRun SpecTreeFit TreeInitProofs
  TreeCheck PropTreeMaster PropTreeLp.
Open Scope nat_scope.

(** C49: the constructor succeeds iff the arguments are consistent, and raises AssertionError otherwise; the initial paths are
    kept as given, marked as initial. *)
Theorem C49_constructor : forall A,
  ((exists w, dtree_init A = Ok w) <-> constructible A)
  /\ (~ constructible A -> dtree_init A = Err AssertionError)
  /\ (forall w, dtree_init A = Ok w ->
        tm_paths (tw_master w)
        = map (fun p => mkPath (p_leaf p) (p_nodes p) (p_splits p) (p_cost p) (p_id p) (p_target p) true) (ta_paths A)
        /\ length (tw_subs w)
           = if ta_old A then length (ta_leaves A) * length (ta_targets A) else length (ta_leaves A)).
Proof.
  intros A. destruct (dtree_init_dec A) as [[[w E] H]|[E H]]; (split; [|split]).
  - split; eauto.
  - tauto.
  - intros w' E'. clear E. unfold dtree_init in E'. inv_ok. cbn. split; [reflexivity|].
    rewrite map_length. unfold sub_specs. destruct (ta_old A).
    + clear. induction (ta_leaves A) as [|lf ls IH]; cbn; auto. rewrite app_length, map_length. rewrite IH. reflexivity.
    + clear. induction (ta_leaves A) as [|lf ls IH]; cbn; auto.
  - split; [intros [w Ew]; congruence|tauto].
  - auto.
  - intros w Ew. congruence.
Qed.
Print Assumptions C49_constructor.

(** Arguments of a depth 1 tree on the data of PropTreeLp: two leaves, node 0 with candidates 0 and 1. *)
Definition ex1_args (depth : nat) (old : bool) : targs :=
  mkTargs [mkPath 0 [0] [0] 1 0 0 false; mkPath 1 [0] [0] 1 0 1 false] (complete_leaves 1) ex1_nodes ex1_splits depth [0; 1]%Z
    (-1) (-1) 3 false true None old.
Example C49_case : constructible (ex1_args 1 true) /\ ~ constructible (ex1_args 2 true)
  /\ exists w, dtree_init (ex1_args 1 true) = Ok w /\ length (tw_subs w) = 4.
Proof.
  assert (C : constructible (ex1_args 1 true)).
  { split; [|split].
    - intros [|k] Hk; cbn in *; [auto|lia].
    - intros [|[|k]] Hk; cbn in *; auto; lia.
    - apply Forall_cons; [|apply Forall_cons; [|apply Forall_nil]]; unfold made_of; cbn; intuition. }
  split; [exact C|]. split.
  - intros (_ & _ & H). inversion H as [|p l (_ & _ & _ & _ & H5 & _) _]. discriminate H5.
  - destruct (C49_constructor (ex1_args 1 true)) as (H1 & _ & H3). destruct (proj2 H1 C) as [w E]. exists w. split; auto. apply (H3 w E).
Qed.

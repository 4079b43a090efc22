(** Specification of what a trained decision tree is worth (statement side only). *)
From Verif Require Import Base Lp SpecDual FitModel SolveModel TreeModel TreePricingModel TreeFitModel SpecTree SpecTreeRun SpecTreeLp SpecTreePrice SpecTreeMip SpecTreeTrain.
Open Scope nat_scope.

(** The cost of path [p] is at most the total weight of the training rows that follow it and have its class. *)
Definition modest (u : setup) (w : nat -> Q) (p : path) : Prop :=
  exists rs, NoDup rs /\ (p_cost p <= qsum w rs)%Q /\
    forall r, In r rs <-> exists c, nth_error (su_y u) r = Some c /\ p_target p = Z.of_nat c /\
                                    covers (su_X u) (su_leaves u) (su_splits u) (KRow r) p.
(** The weights of the rows the subproblems look at; the other rows weigh 0. *)
Definition data_weight (u : setup) (w : nat -> Q) : Prop :=
  forall r, (active u r -> (w r == inject_Z (Z.of_nat (row_weight u r)))%Q) /\ (~ active u r -> (w r == 0)%Q).
(** The integer solver's answers for reachable master problems are optimal. *)
Definition optimal_selection (u : setup) (sv : fsolvers) : Prop :=
  forall i ops cuts s x, after u ops cuts s -> tv_ip (fs_tree sv) i (tm_lp s) = Some x -> ip_optimal (tm_lp s) x.
(** They are optimal up to a gap below 1 (the gap of an optimal answer is 0). *)
Definition near_selection (u : setup) (sv : fsolvers) : Prop :=
  exists g, (g < 1)%Q /\ forall i ops cuts s x, after u ops cuts s -> tv_ip (fs_tree sv) i (tm_lp s) = Some x -> near_optimal (tm_lp s) x g.
(** The estimator predicts class number [code xr] for sample [xr]. *)
Definition predicts (A : targs) (s : fstate tworld tduals path) (code : sample -> Z) : Prop :=
  forall L (classes : list L) Xs, Forall (fits (ta_splits A)) Xs -> tree_predict A classes s Xs = map_res (fun xr => decode classes (code xr)) Xs.
(** [z] is one of the class numbers 0, ..., [nt] - 1. *)
Definition class_number (nt : nat) (z : Z) : Prop := (0 <= z < Z.of_nat nt)%Z.
(** Training row [r] counts: the subproblems look at it and it has a weight. *)
Definition counts (u : setup) (r : nat) : Prop := active u r /\ 0 < row_weight u r.
(** Every answer of every solver is right: LP answers are optimal with optimal duals, the integer solver and the pricing
    solvers are optimal, the order of a set is a permutation. *)
Record right_answers (u : setup) (sv : fsolvers) : Prop := {
  ra_lp : forall i m x pi, tv_lp (fs_tree sv) i m = Some (x, pi) -> lp_kkt m x pi;
  ra_ip : optimal_selection u sv;
  ra_cuts : sound_solvers (fs_tree sv);
  ra_pricing : exact_pricing sv;
  ra_sat : forall k st m, Forall (ip_feasible m) (snd (fs_sat sv k st m));
  ra_mip : forall k m x, fs_mip sv k m = Some x -> ip_feasible m x;
  ra_order : forall k l, Permutation (fs_order sv k l) l
}.

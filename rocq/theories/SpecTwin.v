(** Words for property C89: two problems that differ only in how the features are written. *)
From Verif Require Import Base Lp FitModel TreeModel TreePricingModel TreeFitModel.
Open Scope nat_scope.

(** The same split object with another feature and threshold. *)
Definition with_test (s : split) (f : nat) (t : Q) : split :=
  mkSplit (s_id s) f t (s_removed s) (s_lrows s) (s_rrows s) (s_lcuts s) (s_rcuts s).
(** The side of the split a sample is on: [Some true] for left; [None] if the sample has no such feature. *)
Definition side (x : sample) (s : split) : option bool :=
  match nth_error x (s_feature s) with Some v => Some (Qle_bool v (s_threshold s)) | None => None end.
(** Two lists of splits that differ in features and thresholds only, and two samples on the same sides of them. *)
Definition same_sides (splits splits' : list split) (x x' : sample) : Prop := Forall2 (fun s s' => side x s = side x' s') splits splits'.
Record twins (splits splits' : list split) : Prop := {
  tw_fields : Forall2 (fun s s' => s' = with_test s (s_feature s') (s_threshold s')) splits splits';
  (* splits test the same feature as before, and their thresholds are ordered as before *)
  tw_feature : forall i j a b a' b', nth_error splits i = Some a -> nth_error splits j = Some b -> nth_error splits' i = Some a' -> nth_error splits' j = Some b' ->
    (s_feature a = s_feature b <-> s_feature a' = s_feature b');
  tw_order : forall i j a b a' b', nth_error splits i = Some a -> nth_error splits j = Some b -> nth_error splits' i = Some a' -> nth_error splits' j = Some b' ->
    s_feature a = s_feature b -> (s_threshold a < s_threshold b <-> s_threshold a' < s_threshold b')%Q
}.

(** The same arguments with other splits. *)
Definition args_with (A : targs) (splits : list split) : targs :=
  mkTargs (ta_paths A) (ta_leaves A) (ta_nodes A) splits (ta_depth A) (ta_targets A) (ta_max_iterations A) (ta_time_limit A) (ta_rounds A) (ta_beta A) (ta_gen A)
    (ta_rows A) (ta_old A).

(** Two classifiers built from [A] and [A'] and then trained equally often, with the same labels and with samples related by [R]. *)
Inductive in_step (sv : fsolvers) (clk : nat -> Q) (A A' : targs) (R : sample -> sample -> Prop) : fstate tworld tduals path -> fstate tworld tduals path -> Prop :=
| step_new : forall w w', dtree_init A = Ok w -> dtree_init A' = Ok w' -> in_step sv clk A A' R (new_estimator w) (new_estimator w')
| step_fit : forall s s' X X' y fuel t t', in_step sv clk A A' R s s' -> Forall2 R X X' ->
    tree_fit sv A clk X y fuel s = (t, Done tt) -> tree_fit sv A' clk X' y fuel s' = (t', Done tt) -> in_step sv clk A A' R t t'.

(** Nothing but the features, thresholds and samples themselves tells the two apart. *)
Record alike (sv : fsolvers) (clk : nat -> Q) (A A' : targs) (R : sample -> sample -> Prop) : Prop := {
  al_new : match dtree_init A, dtree_init A' with Ok _, Ok _ => True | Err e, Err e' => e = e' | _, _ => False end;
  (* training returns, or raises the same exception *)
  al_fit : forall s s' X X' y fuel, in_step sv clk A A' R s s' -> Forall2 R X X' ->
    snd (tree_fit sv A' clk X' y fuel s') = snd (tree_fit sv A clk X y fuel s);
  (* same calls with the same duals and columns, same attributes, same LP, columns and chosen paths *)
  al_state : forall s s', in_step sv clk A A' R s s' ->
    f_trace s' = f_trace s /\ f_iter s' = f_iter s /\ f_improving s' = f_improving s /\ f_optimal s' = f_optimal s /\ f_tlr s' = f_tlr s /\
    f_cols s' = f_cols s /\ f_tsp s' = f_tsp s /\ f_tadd s' = f_tadd s /\ f_tmaster s' = f_tmaster s /\ f_tip s' = f_tip s /\ f_elapsed s' = f_elapsed s /\
    tm_lp (tw_master (f_world s')) = tm_lp (tw_master (f_world s)) /\ tm_paths (tw_master (f_world s')) = tm_paths (tw_master (f_world s)) /\
    tm_selected (tw_master (f_world s')) = tm_selected (tw_master (f_world s));
  (* same predictions *)
  al_predict : forall s s' (L : Type) (classes : list L) Xs Xs', in_step sv clk A A' R s s' -> Forall2 R Xs Xs' ->
    tree_predict A' classes s' Xs' = tree_predict A classes s Xs
}.

(** [x'] has the value [g f v] for feature [f] where [x] has [v]. *)
Definition rewritten (g : nat -> Q -> Q) (x x' : sample) : Prop := length x' = length x /\ forall f v, nth_error x f = Some v -> nth_error x' f = Some (g f v).
(** The splits at the rewritten thresholds. *)
Definition rewrite_splits (g : nat -> Q -> Q) (splits : list split) : list split := map (fun s => with_test s (s_feature s) (g (s_feature s) (s_threshold s))) splits.
(** The columns of the data in another order, possibly with further columns: feature [f] is now feature [to f]. *)
Definition moved (to : nat -> nat) (x x' : sample) : Prop := forall f, nth_error x' (to f) = nth_error x f.
Definition move_splits (to : nat -> nat) (splits : list split) : list split := map (fun s => with_test s (to (s_feature s)) (s_threshold s)) splits.
(** Samples that agree on the side of every split. *)
Definition no_split_between (splits : list split) (x x' : sample) : Prop := forall s, In s splits -> side x s = side x' s.

(** What a user of the experiment script relies on (statement side only). *)
From Verif Require Import Base Lp FitModel TreeModel TreePricingModel TreeFitModel ExpModel ExpMainModel SpecTree SpecTreeRun SpecTreeLp SpecTreeTrain SpecTreeResult SpecExp SpecPrep.
Open Scope nat_scope.

(** The data and the CART trees: at least one training and one test sample, all with the same number of features; at least two
    classes, encoded as 0, 1, ...; CART trees of at most the wanted depth; the final tree tests something. *)
Record script_input (wd : world) (o : options) : Prop := {
  si_depth : 1 <= op_depth o;
  si_rows : 0 < length (wd_X wd) /\ 0 < length (wd_Xt wd);
  si_labels : length (wd_y wd) = length (wd_X wd) /\ length (wd_yt wd) = length (wd_Xt wd);
  si_width : exists m, Forall (fun x => length x = m) (wd_X wd ++ wd_Xt wd) /\
    (forall i, cart_for (op_depth o) m (wd_first wd i)) /\ cart_for (op_depth o) m (wd_final wd) /\ (forall i, cart_for (op_depth o) m (wd_more wd i));
  si_test : exists h, has_test (wd_final wd) h;
  si_classes : contiguous (wd_y wd) /\ exists a b, In a (wd_y wd) /\ In b (wd_y wd) /\ a <> b
}.
(** Whenever the time for preprocessing ends, no initial path loses its splits. *)
Definition splits_kept (wd : world) (o : options) : Prop :=
  forall n m, n <= 300 -> m <= 100 -> let cs := map (wd_first wd) (seq 0 n) in
    initial_kept (op_depth o) cs (wd_final wd) /\ extra_kept (op_depth o) cs (wd_final wd) (map (wd_more wd) (seq 0 m)).
(** The solvers answer honestly, and the integer solver optimally up to a gap below 1, for every master problem. *)
Definition always_honest (sv : fsolvers) : Prop := forall u, valid_setup u -> honest u sv.
Definition always_optimal (sv : fsolvers) : Prop := forall u, valid_setup u -> near_selection u sv.
(** [q] is the share of the samples to which [assigns] assigns their class. *)
Definition accuracy (X : list sample) (y : list nat) (assigns : sample -> nat -> Prop) (q : Q) : Prop :=
  exists rs, right_rows X y assigns rs /\ (q * inject_Z (Z.of_nat (length X)) == inject_Z (Z.of_nat (length rs)))%Q.
(** A path without its number. *)
Definition bare (p : path) : path := with_id p 0.
(** The columns a training run added to the master problem, in order. *)
Definition added_paths {D} (t : list (event D path)) : list path := flat_map (fun x => match x with EvAdd _ _ p true => [p] | _ => [] end) t.
(** How often the heuristic was called in a run and how many paths it returned. *)
Definition heuristic_calls {D C} (t : list (event D C)) : nat := length (filter (fun x => match x with EvGenerate 0 _ _ _ => true | _ => false end) t).
Definition heuristic_paths {D C} (t : list (event D C)) : nat := list_sum (map (fun x => match x with EvGenerate 0 _ _ cols => length cols | _ => 0 end) t).

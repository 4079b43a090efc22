(** Functions that nothing in the repository calls: DTreeMasterProblem.remove_gen_vars (_dtree_classifier.py) and
    merge_all_nodes_last_split (examples/dtree_experiment.py). *)
From Verif Require Import Base Lp TreeModel ExpModel.
Open Scope nat_scope.

(** variable.SetUb(q). *)
Definition set_ub (v : nat) (q : Q) (m : lp) : lp :=
  mkLp (map_nth (fun k => mkVar (v_lb k) (Some q) (v_int k)) (lp_vars m) v) (lp_obj m) (lp_off m) (lp_max m) (lp_cons m).
(** The state with another solver model. *)
Definition with_lp (m : lp) (s : tmaster) : tmaster := with_cons s m (tm_splits s) (tm_row_cons s) (tm_added s) (tm_cut_cons s).
(** remove_gen_vars, _dtree_classifier.py:1015-1022.  Result: the state, last_reset_iter_ and reset_timer_.  solver.variable of an
    unknown index fails. *)
Definition remove_gen_vars (s : tmaster) : res (tmaster * nat * bool) :=
  let* m := for_each (tm_paths s)
    (fun p m => if p_initial p then Ok m
                else if p_id p <? num_vars m then Ok (set_ub (p_id p) 0%Q m) else Err IndexError) (tm_lp s) in
  Ok (with_lp m s, tm_iter s, true).

(** merge_all_nodes_last_split, dtree_experiment.py:746-757.  The first dictionary is changed in place and returned. *)
Definition merge_all_nodes_last_split (d1 d2 : ndict) : ndict :=
  fold_left
    (fun d kn => match assoc Nat.eqb d (fst kn) with
                 | Some nd => assoc_set Nat.eqb d (fst kn) (mkEn (en_id nd) (en_cands nd) (en_counts nd) (en_last (snd kn)))
                 | None => d
                 end) d2 d1.

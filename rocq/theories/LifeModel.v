(** The life of an estimator: any sequence of calls of fit and predict on one object, with labels of any ordered type (definitions only).
    _col_gen_classifier.py:343-362 and 453-459 (fit up to the first call of the master problem, and its end), _bdr_classifier.py:677-703 and
    _dtree_classifier.py:2519-2545 (predict).

    Simplifications: check_X_y and check_array raise ValueError unless the data are a non-empty table with at least one column, all rows equally
    long, and one label per row; missing values, sparse data and labels that are no class labels are not modelled.  classes_ and label_encoder_ are assigned
    together (lines 348, 354-358).  The model of fit forgets what a call of the master problem or of a subproblem that raises did before; here an arbitrary
    function of the objects stands for it (for instance solve_ip clears the explanation before it asserts that there is a solution, lines 337-342 of
    _bdr_classifier.py).  print (line 694 of _bdr_classifier.py) is left out. *)
From Coq Require Import String.
From Verif Require Import Base Lp FitModel BdrModel BdrFitModel TreeModel TreePricingModel TreeFitModel ScriptModel.
Open Scope nat_scope.

(** A kind of estimator: the objects plugged into fit for the data given to it, what a call that raises leaves behind, and the class codes predict
    computes for samples before they are translated back. *)
Record kind (W D C : Type) := mkKind {
  k_calls : list sample -> list nat -> env W D C;
  k_wreck : list sample -> list nat -> exn -> W -> W;
  k_codes : W -> list sample -> res (list Z)
}.
Arguments mkKind {W D C}. Arguments k_calls {W D C}. Arguments k_wreck {W D C}. Arguments k_codes {W D C}.

(** The object: what fit changes, and the classes of the label encoder once it exists. *)
Record live (W D C L : Type) := mkLive { lv_state : fstate W D C; lv_classes : option (list L) }.
Arguments mkLive {W D C L}. Arguments lv_state {W D C L}. Arguments lv_classes {W D C L}.

(** The calls of a user and what they see.  NotFitted: NotFittedError.  Running: the model's bound on the steps of fit was too small. *)
Inductive op (L : Type) := Fit (X : list sample) (y : list L) | Predict (X : list sample).
Arguments Fit {L}. Arguments Predict {L}.
Inductive reply (L : Type) := Fitted | FitRaised (e : exn) | Running | Labels (ls : list L) | NotFitted | PredictRaised (e : exn).
Arguments Fitted {L}. Arguments FitRaised {L}. Arguments Running {L}. Arguments Labels {L}. Arguments NotFitted {L}. Arguments PredictRaised {L}.

(** check_array (line 691 of _bdr_classifier.py, line 2532 of _dtree_classifier.py). *)
Definition check_array (X : list sample) : bool :=
  match X with
  | [] => false
  | x :: X' => negb (length x =? 0) && forallb (fun r => length r =? length x) X'
  end.
(** check_X_y, line 345. *)
Definition check_X_y {L} (X : list sample) (y : list L) : bool := check_array X && (length y =? length X).

Section Life.
Context {W D C L : Type}.
Variables (k : kind W D C) (ltb : L -> L -> bool) (fuel : nat).

(** A new object. *)
Definition fresh (w : W) : live W D C L := mkLive (new_estimator w) None.

(** fit stopped by an exception of one of the objects. *)
Definition wrecked (f : W -> W) (s : fstate W D C) : fstate W D C :=
  mkF (f (f_world s)) (f_tick s) (f_trace s) (f_tstart s) (f_iter s) (f_performed s) (f_improving s) (f_optimal s)
      (f_tlr s) (f_cols s) (f_tsp s) (f_tadd s) (f_tmaster s) (f_tip s) (f_elapsed s) (f_fitted s).

(** fit(X, y), lines 343-459.  The label encoder is replaced (lines 354-355) before the check for a single class (lines 358-360)
    and before the master problem sees the data. *)
Definition life_fit (X : list sample) (y : list L) (o : live W D C L) : live W D C L * reply L :=
  if check_X_y X y then
    let classes := label_classes ltb y in
    match encode ltb classes y with
    | Ok codes =>
        let '(s, r) := fit (k_calls k X codes) fuel (map Z.of_nat codes) (lv_state o) in
        match r with
        | Done _ => (mkLive s (Some classes), Fitted)
        | Raised e => (mkLive (if length classes <=? 1 then s else wrecked (k_wreck k X codes e) s) (Some classes), FitRaised e)
        | NoFuel => (mkLive s (Some classes), Running)
        end
    | Err e => (o, FitRaised e)
    end
  else (mkLive (fst (time (k_calls k [] []) (lv_state o))) (lv_classes o), FitRaised ValueError).

(** predict(X).  Without a label encoder: AttributeError. *)
Definition life_predict (X : list sample) (o : live W D C L) : reply L :=
  if check_array X then
    if f_fitted (lv_state o) then
      match k_codes k (f_world (lv_state o)) X with
      | Err e => PredictRaised e
      | Ok codes =>
          match lv_classes o with
          | None => PredictRaised AttributeError
          | Some classes => match map_res (decode classes) codes with Ok ls => Labels ls | Err e => PredictRaised e end
          end
      end
    else NotFitted
  else PredictRaised ValueError.

Definition step (o : live W D C L) (c : op L) : live W D C L * reply L :=
  match c with Fit X y => life_fit X y o | Predict X => (o, life_predict X o) end.
(** The calls of a user one after the other, whether they raise or not. *)
Fixpoint run (o : live W D C L) (cs : list (op L)) : live W D C L * list (reply L) :=
  match cs with
  | [] => (o, [])
  | c :: cs' => let '(o1, r) := step o c in let '(o2, rs) := run o1 cs' in (o2, r :: rs)
  end.
End Life.

(** BooleanDecisionRuleClassifier (and ...WithHeuristic): predict, _bdr_classifier.py:691-701. *)
Definition bdr_kind (sv : solvers) (P : bparams) (clk : nat -> Q) (wreck : list sample -> list nat -> exn -> bworld -> bworld) : kind bworld (Q * list Q) clause :=
  mkKind (bdr_env sv P clk) wreck
    (fun w X => match bm_explanation (bw_master w) with
                | None => Err AttributeError
                | Some e => map_res (fun row => let* c := any_clause row e in Ok (Z.of_nat c)) X
                end).
(** DTreeClassifier: predict, _dtree_classifier.py:2532-2544. *)
Definition tree_kind (sv : fsolvers) (A : targs) (clk : nat -> Q) (wreck : list sample -> list nat -> exn -> tworld -> tworld) : kind tworld tduals path :=
  mkKind (tree_env sv A clk) wreck
    (fun w X => match tm_selected (tw_master w) with
                | None => Err AttributeError
                | Some sel => map_res (fun x => predict_code x (ta_leaves A) (tm_splits (tw_master w)) sel) X
                end).

(** Model of ColGenClassifier in col_gen_estimator/_col_gen_classifier.py:309-459 (definitions only).

    The master problem and the subproblems are arbitrary user objects.  Their joint state is a value of an arbitrary type
    [W]; [D] is the type of the dual information and [C] the type of columns.  Every call may raise.  [time()] reads a
    stream of clock values.  The model also records the calls it makes (a ghost trace, not in the code). *)
From Verif Require Import Base.
Open Scope Q_scope.

(** Recorded calls.  [EvCheck l i e] is the time check of lines 414-415 before subproblem (l,i) with elapsed time [e]. *)
Inductive event (D C : Type) :=
| EvGenerateMp
| EvSolveRmp (d : D)
| EvImproved (b : bool)
| EvResetTimer
| EvUpdate (l i : nat) (d : D)
| EvCheck (l i : nat) (elapsed : Q)
| EvGenerate (l i : nat) (d : D) (cols : list C)
| EvAdd (l i : nat) (c : C) (added : bool)
| EvSolveIp (ok : bool).
Arguments EvGenerateMp {D C}. Arguments EvSolveRmp {D C} d. Arguments EvImproved {D C} b.
Arguments EvResetTimer {D C}. Arguments EvUpdate {D C} l i d. Arguments EvCheck {D C} l i elapsed.
Arguments EvGenerate {D C} l i d cols. Arguments EvAdd {D C} l i c added. Arguments EvSolveIp {D C} ok.

(** Constructor arguments (lines 309-324) and the behaviour of the plugged-in objects. *)
Record env (W D C : Type) := mkEnv {
  max_iterations : Z;
  time_limit : Q;
  levels : list nat;                             (* number of subproblems of each level *)
  rmp_is_ip : bool;
  clock : nat -> Q;                              (* successive results of time() *)
  c_generate_mp : W -> res W;
  c_solve_rmp : W -> res (D * W);
  c_improved : W -> res (bool * W);              (* rmp_objective_improved *)
  c_reset_timer : W -> bool * W;                 (* lines 392-395: read and clear reset_timer_ if present *)
  c_update : nat -> nat -> D -> W -> res W;      (* update_subproblem *)
  c_generate : nat -> nat -> D -> W -> res (list C * W);   (* generate_columns *)
  c_add : C -> W -> res (bool * W);              (* add_column *)
  c_solve_ip : W -> res (bool * W)
}.
Arguments max_iterations {W D C}. Arguments time_limit {W D C}. Arguments levels {W D C}.
Arguments rmp_is_ip {W D C}. Arguments clock {W D C}. Arguments c_generate_mp {W D C}.
Arguments c_solve_rmp {W D C}. Arguments c_improved {W D C}. Arguments c_reset_timer {W D C}.
Arguments c_update {W D C}. Arguments c_generate {W D C}. Arguments c_add {W D C}. Arguments c_solve_ip {W D C}.

(** ColGenClassifier.__init__, lines 325-327: shapes of subproblems and subproblem_params must agree. *)
Definition construct (subproblems subproblem_params : list nat) : res unit :=
  let* _ := assert (length subproblems =? length subproblem_params)%nat in
  for_each (seq 0 (length subproblems))
    (fun level _ => let* a := getitem subproblems level in let* b := getitem subproblem_params level in
                    assert (a =? b)%nat) tt.

(** Attributes of self assigned by fit, plus local [t_start], the world, the clock position and the trace. *)
Record fstate (W D C : Type) := mkF {
  f_world : W;
  f_tick : nat;
  f_trace : list (event D C);
  f_tstart : Q;                 (* local t_start *)
  f_iter : nat;                 (* iter_ *)
  f_performed : nat;            (* performed_iter_ *)
  f_improving : nat;            (* num_improving_iter_ *)
  f_optimal : bool;             (* mp_optimal_ *)
  f_tlr : bool;                 (* time_limit_reached_ *)
  f_cols : list (list nat);     (* num_col_added_sp_ *)
  f_tsp : list (list Q);        (* time_spent_sp_ *)
  f_tadd : Q;                   (* time_add_col_ *)
  f_tmaster : Q;                (* time_spent_master_ *)
  f_tip : Q;                    (* time_spent_master_ip_ *)
  f_elapsed : Q;                (* time_elapsed_ *)
  f_fitted : bool               (* is_fitted_ *)
}.
Arguments mkF {W D C}.
Arguments f_world {W D C}. Arguments f_tick {W D C}. Arguments f_trace {W D C}. Arguments f_tstart {W D C}.
Arguments f_iter {W D C}. Arguments f_performed {W D C}. Arguments f_improving {W D C}. Arguments f_optimal {W D C}.
Arguments f_tlr {W D C}. Arguments f_cols {W D C}. Arguments f_tsp {W D C}. Arguments f_tadd {W D C}.
Arguments f_tmaster {W D C}. Arguments f_tip {W D C}. Arguments f_elapsed {W D C}. Arguments f_fitted {W D C}.

(** Result of running a piece of fit: a value, an exception, or the model's loop bound was too small. *)
Inductive outcome (A : Type) := Done (a : A) | Raised (e : exn) | NoFuel.
Arguments Done {A} a. Arguments Raised {A} e. Arguments NoFuel {A}.

Section Fit.
Context {W D C : Type}.
Variable E : env W D C.
Notation st := (fstate W D C).

(** State and exception monad: attribute changes made before an exception persist. *)
Definition M (A : Type) : Type := st -> st * outcome A.
Definition ret {A} (a : A) : M A := fun s => (s, Done a).
Definition mbind {A B} (m : M A) (f : A -> M B) : M B :=
  fun s => match m s with
           | (s1, Done a) => f a s1
           | (s1, Raised e) => (s1, Raised e)
           | (s1, NoFuel) => (s1, NoFuel)
           end.
Definition raise {A} (e : exn) : M A := fun s => (s, Raised e).
Notation "x <- m ;; k" := (mbind m (fun x => k)) (at level 100, m at next level, right associativity).
Notation "m ;;; k" := (mbind m (fun _ => k)) (at level 100, right associativity).

(** One call of time(). *)
Definition time : M Q := fun s =>
  (mkF (f_world s) (S (f_tick s)) (f_trace s) (f_tstart s) (f_iter s) (f_performed s) (f_improving s) (f_optimal s)
       (f_tlr s) (f_cols s) (f_tsp s) (f_tadd s) (f_tmaster s) (f_tip s) (f_elapsed s) (f_fitted s),
   Done (clock E (f_tick s))).

(** A call of a plugged-in object: runs it on the world and records the event built from its result. *)
Definition call {A} (f : W -> res (A * W)) (ev : A -> event D C) : M A := fun s =>
  match f (f_world s) with
  | Ok (a, w) =>
      (mkF w (f_tick s) (f_trace s ++ [ev a]) (f_tstart s) (f_iter s) (f_performed s) (f_improving s) (f_optimal s)
           (f_tlr s) (f_cols s) (f_tsp s) (f_tadd s) (f_tmaster s) (f_tip s) (f_elapsed s) (f_fitted s), Done a)
  | Err e => (s, Raised e)
  end.
Definition call_unit (f : W -> res W) (ev : event D C) : M unit :=
  call (fun w => let* w' := f w in Ok (tt, w')) (fun _ => ev).

(** Record an event without a call (the time check). *)
Definition log (ev : event D C) : M unit := fun s =>
  (mkF (f_world s) (f_tick s) (f_trace s ++ [ev]) (f_tstart s) (f_iter s) (f_performed s) (f_improving s) (f_optimal s)
       (f_tlr s) (f_cols s) (f_tsp s) (f_tadd s) (f_tmaster s) (f_tip s) (f_elapsed s) (f_fitted s), Done tt).

(** Assignments to attributes of self. *)
Definition set_tstart (q : Q) : M unit := fun s =>
  (mkF (f_world s) (f_tick s) (f_trace s) q (f_iter s) (f_performed s) (f_improving s) (f_optimal s)
       (f_tlr s) (f_cols s) (f_tsp s) (f_tadd s) (f_tmaster s) (f_tip s) (f_elapsed s) (f_fitted s), Done tt).
Definition incr_iter : M unit := fun s =>
  (mkF (f_world s) (f_tick s) (f_trace s) (f_tstart s) (S (f_iter s)) (f_performed s) (f_improving s) (f_optimal s)
       (f_tlr s) (f_cols s) (f_tsp s) (f_tadd s) (f_tmaster s) (f_tip s) (f_elapsed s) (f_fitted s), Done tt).
Definition incr_improving : M unit := fun s =>
  (mkF (f_world s) (f_tick s) (f_trace s) (f_tstart s) (f_iter s) (f_performed s) (S (f_improving s)) (f_optimal s)
       (f_tlr s) (f_cols s) (f_tsp s) (f_tadd s) (f_tmaster s) (f_tip s) (f_elapsed s) (f_fitted s), Done tt).
Definition set_optimal : M unit := fun s =>
  (mkF (f_world s) (f_tick s) (f_trace s) (f_tstart s) (f_iter s) (f_performed s) (f_improving s) true
       (f_tlr s) (f_cols s) (f_tsp s) (f_tadd s) (f_tmaster s) (f_tip s) (f_elapsed s) (f_fitted s), Done tt).
Definition set_tlr : M unit := fun s =>
  (mkF (f_world s) (f_tick s) (f_trace s) (f_tstart s) (f_iter s) (f_performed s) (f_improving s) (f_optimal s)
       true (f_cols s) (f_tsp s) (f_tadd s) (f_tmaster s) (f_tip s) (f_elapsed s) (f_fitted s), Done tt).
Definition get_tlr : M bool := fun s => (s, Done (f_tlr s)).
Definition get_iter : M nat := fun s => (s, Done (f_iter s)).
Definition get_tstart : M Q := fun s => (s, Done (f_tstart s)).
Definition add_tmaster (q : Q) : M unit := fun s =>
  (mkF (f_world s) (f_tick s) (f_trace s) (f_tstart s) (f_iter s) (f_performed s) (f_improving s) (f_optimal s)
       (f_tlr s) (f_cols s) (f_tsp s) (f_tadd s) (f_tmaster s + q) (f_tip s) (f_elapsed s) (f_fitted s), Done tt).
Definition add_tip (q : Q) : M unit := fun s =>
  (mkF (f_world s) (f_tick s) (f_trace s) (f_tstart s) (f_iter s) (f_performed s) (f_improving s) (f_optimal s)
       (f_tlr s) (f_cols s) (f_tsp s) (f_tadd s) (f_tmaster s) (f_tip s + q) (f_elapsed s) (f_fitted s), Done tt).
Definition add_tadd (q : Q) : M unit := fun s =>
  (mkF (f_world s) (f_tick s) (f_trace s) (f_tstart s) (f_iter s) (f_performed s) (f_improving s) (f_optimal s)
       (f_tlr s) (f_cols s) (f_tsp s) (f_tadd s + q) (f_tmaster s) (f_tip s) (f_elapsed s) (f_fitted s), Done tt).
Definition set_elapsed (q : Q) : M unit := fun s =>
  (mkF (f_world s) (f_tick s) (f_trace s) (f_tstart s) (f_iter s) (f_performed s) (f_improving s) (f_optimal s)
       (f_tlr s) (f_cols s) (f_tsp s) (f_tadd s) (f_tmaster s) (f_tip s) q (f_fitted s), Done tt).
Definition set_fitted : M unit := fun s =>
  (mkF (f_world s) (f_tick s) (f_trace s) (f_tstart s) (f_iter s) (f_performed s) (f_improving s) (f_optimal s)
       (f_tlr s) (f_cols s) (f_tsp s) (f_tadd s) (f_tmaster s) (f_tip s) (f_elapsed s) true, Done tt).

(** [m[l][i] += v] on a list of lists; an index out of range raises IndexError. *)
Definition update2 {A} (m : list (list A)) (l i : nat) (f : A -> A) : res (list (list A)) :=
  let* row := getitem m l in let* a := getitem row i in Ok (set_nth m l (set_nth row i (f a))).
Definition add_tsp (l i : nat) (q : Q) : M unit := fun s =>
  match update2 (f_tsp s) l i (fun x => x + q) with
  | Ok t => (mkF (f_world s) (f_tick s) (f_trace s) (f_tstart s) (f_iter s) (f_performed s) (f_improving s)
               (f_optimal s) (f_tlr s) (f_cols s) t (f_tadd s) (f_tmaster s) (f_tip s) (f_elapsed s)
               (f_fitted s), Done tt)
  | Err e => (s, Raised e)
  end.
Definition add_cols (l i : nat) (k : nat) : M unit := fun s =>
  match update2 (f_cols s) l i (fun x => x + k)%nat with
  | Ok t => (mkF (f_world s) (f_tick s) (f_trace s) (f_tstart s) (f_iter s) (f_performed s) (f_improving s)
               (f_optimal s) (f_tlr s) t (f_tsp s) (f_tadd s) (f_tmaster s) (f_tip s) (f_elapsed s)
               (f_fitted s), Done tt)
  | Err e => (s, Raised e)
  end.

(** Lines 366-378. *)
Definition reset_attributes : M unit := fun s =>
  (mkF (f_world s) (f_tick s) (f_trace s) (f_tstart s) 0 0 0 false false
       (map (fun n => repeat 0%nat n) (levels E)) (map (fun n => repeat 0 n) (levels E)) 0 0
       (f_tip s) (f_elapsed s) (f_fitted s), Done tt).

(** Lines 400-408: update all subproblems. *)
Fixpoint update_row (l : nat) (is : list nat) (d : D) : M unit :=
  match is with
  | [] => ret tt
  | i :: is' =>
      t0 <- time ;;
      call_unit (c_update E l i d) (EvUpdate l i d) ;;;
      t1 <- time ;;
      add_tsp l i (t1 - t0) ;;;
      update_row l is' d
  end.
Fixpoint update_all (l : nat) (ns : list nat) (d : D) : M unit :=
  match ns with
  | [] => ret tt
  | n :: ns' => update_row l (seq 0 n) d ;;; update_all (S l) ns' d
  end.

(** Lines 428-432. *)
Fixpoint add_columns (l i : nat) (cols : list C) (updated : bool) : M bool :=
  match cols with
  | [] => ret updated
  | c :: cols' =>
      b <- call (c_add E c) (EvAdd l i c) ;;
      add_cols l i (if b then 1 else 0)%nat ;;;
      add_columns l i cols' (updated || b)
  end.

(** Lines 413-435: the subproblems of one level; the result is rmp_updated. *)
Fixpoint price_row (l : nat) (is : list nat) (d : D) (updated : bool) : M bool :=
  match is with
  | [] => ret updated
  | i :: is' =>
      t <- time ;;
      t0 <- get_tstart ;;
      set_elapsed (t - t0) ;;;
      log (EvCheck l i (t - t0)) ;;;
      (if Qltb 0 (time_limit E) && Qltb (time_limit E) (t - t0) then
         set_tlr ;;; ret updated
       else
         s0 <- time ;;
         cols <- call (c_generate E l i d) (EvGenerate l i d) ;;
         s1 <- time ;;
         add_tsp l i (s1 - s0) ;;;
         a0 <- time ;;
         updated' <- add_columns l i cols updated ;;
         a1 <- time ;;
         add_tadd (a1 - a0) ;;;
         if (updated' : bool) then ret updated' else price_row l is' d updated')
  end.

(** Lines 410-441: the levels; [updated] is rmp_updated of the last level looked at. *)
Fixpoint price_all (l : nat) (ns : list nat) (d : D) (updated : bool) : M bool :=
  match ns with
  | [] => ret updated
  | n :: ns' =>
      updated' <- price_row l (seq 0 n) d false ;;
      t <- time ;;
      t0 <- get_tstart ;;
      set_elapsed (t - t0) ;;;
      tlr <- get_tlr ;;
      if (tlr : bool) then ret updated'
      else if (updated' : bool) then ret updated'
      else price_all (S l) ns' d updated'
  end.

(** Lines 382-441: one iteration; the result is rmp_updated. *)
Definition iteration : M bool :=
  incr_iter ;;;
  _ <- time ;;                                        (* line 384, printed *)
  m0 <- time ;;
  d <- call (c_solve_rmp E) EvSolveRmp ;;
  m1 <- time ;;
  add_tmaster (m1 - m0) ;;;
  b <- call (c_improved E) EvImproved ;;
  (if (b : bool) then incr_improving else ret tt) ;;;
  r <- (fun s => let '(r, w) := c_reset_timer E (f_world s) in
          (mkF w (f_tick s) (f_trace s) (f_tstart s) (f_iter s) (f_performed s) (f_improving s) (f_optimal s)
               (f_tlr s) (f_cols s) (f_tsp s) (f_tadd s) (f_tmaster s) (f_tip s) (f_elapsed s) (f_fitted s), Done r)) ;;
  (if (r : bool) then t <- time ;; set_tstart t ;;; log EvResetTimer else ret tt) ;;;
  update_all 0 (levels E) d ;;;
  price_all 0 (levels E) d false.

(** Lines 379-447. *)
Fixpoint loop (fuel : nat) : M unit :=
  match fuel with
  | O => fun s => (s, NoFuel)
  | S fuel' =>
      k <- get_iter ;;
      if (0 <? max_iterations E)%Z && (max_iterations E <=? Z.of_nat k)%Z then ret tt
      else
        updated <- iteration ;;
        if (updated : bool) then loop fuel'
        else
          tlr <- get_tlr ;;
          if (tlr : bool) then ret tt else set_optimal
  end.

(** Lines 449-457. *)
Definition finish : M unit :=
  (fun s => (mkF (f_world s) (f_tick s) (f_trace s) (f_tstart s) (f_iter s) (f_performed s) (f_improving s)
                 (f_optimal s) (f_tlr s) (f_cols s) (f_tsp s) (f_tadd s) (f_tmaster s) 0 (f_elapsed s) (f_fitted s),
             Done tt)) ;;;
  (if rmp_is_ip E then
     t0 <- time ;;
     ok <- call (c_solve_ip E) EvSolveIp ;;
     t1 <- time ;;
     add_tip (t1 - t0) ;;;
     if (ok : bool) then ret tt else raise AssertionError
   else ret tt) ;;;
  set_fitted ;;;
  t <- time ;;
  t0 <- get_tstart ;;
  set_elapsed (t - t0).

(** fit, lines 329-459.  [y] are the labels after scikit-learn's validation (check_X_y is not modelled). *)
Definition fit (fuel : nat) (y : list Z) : M unit :=
  t <- time ;;
  set_tstart t ;;;
  if (length (nodup Z.eq_dec y) <=? 1)%nat then raise ValueError
  else
    call_unit (c_generate_mp E) EvGenerateMp ;;;
    reset_attributes ;;;
    loop fuel ;;;
    finish.

End Fit.

(** An estimator before its first fit (the attributes do not exist yet; only [f_fitted] matters). *)
Definition new_estimator {W D C} (w : W) : fstate W D C :=
  mkF w 0 [] 0 0 0 0 false false [] [] 0 0 0 0 false.

(** Words for what an estimator and the experiment script report about a run (statement side only). *)
From Verif Require Import Base FitModel.
Open Scope Q_scope.

(** The number of [true] entries of a list of flags. *)
Definition marked (l : list bool) : nat := length (filter (fun b => b) l).

(** * Who used the time *)
Section Timeline.
Context {D C : Type}.
Notation ev := (event D C).
(** The clock readings of a run, each with the calls made before the next reading. *)
Definition timeline : Type := list (Q * list ev).
(** The time between consecutive readings, summed over the intervals whose calls are as in [P]. *)
Fixpoint spent (P : list ev -> bool) (tl : timeline) : Q :=
  match tl with
  | qe :: tl' => match tl' with
                 | qe' :: _ => (if P (snd qe) then fst qe' - fst qe else 0) + spent P tl'
                 | [] => 0
                 end
  | [] => 0
  end.
Definition holds (p : ev -> bool) (es : list ev) : bool := existsb p es.
Definition idle (es : list ev) : bool := match es with [] => true | _ => false end.
(** The calls of the subproblem with number [i] of level [l]. *)
Definition works (l i : nat) (x : ev) : bool :=
  match x with EvUpdate l' i' _ => ((l' =? l) && (i' =? i))%nat | EvGenerate l' i' _ _ => ((l' =? l) && (i' =? i))%nat | _ => false end.
Definition is_offer (x : ev) : bool := match x with EvAdd _ _ _ _ => true | _ => false end.
(** An interval has at most one call, or only calls that offer columns to the master problem. *)
Definition alone (es : list ev) : Prop := (length es <= 1)%nat \/ forallb is_offer es = true.
(** Time passes only during the calls: a call [x] takes [dur x]. *)
Definition stopwatch (dur : ev -> Q) (tl : timeline) : Prop :=
  forall k qe qe', nth_error tl k = Some qe -> nth_error tl (S k) = Some qe' -> fst qe' - fst qe == qsum dur (snd qe).
Definition total_duration (dur : ev -> Q) (p : ev -> bool) (t : list ev) : Q := qsum dur (filter p t).
End Timeline.
Definition cell {A} (a : A) (m : list (list A)) (l i : nat) : A := nth i (nth l m []) a.

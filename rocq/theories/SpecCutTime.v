(** Words for property C86: time spent on cuts as part of the time of the master problem. *)
From Verif Require Import Base FitModel TreeModel TreePricingModel TreeFitModel SpecReport CutTimeModel.
Open Scope Q_scope.

(** No reading is smaller than the one before it. *)
Definition ascending (l : list Q) : Prop := forall i a b, nth_error l i = Some a -> nth_error l (S i) = Some b -> a <= b.
(** The readings the master problem made, in order. *)
Fixpoint readings {D C} (t : list (event (D * list Q) C)) : list Q :=
  match t with [] => [] | EvSolveRmp d :: t' => snd d ++ readings t' | _ :: t' => readings t' end.
(** Readings come in pairs, before and after a search for cuts: the time between the readings of the pairs, and its total over a list of events. *)
Fixpoint pair_sum (l : list Q) : Q := match l with a :: b :: l' => (b - a + pair_sum l')%Q | _ => 0%Q end.
Definition inner {D C} (x : event (D * list Q) C) : Q := match x with EvSolveRmp d => pair_sum (snd d) | _ => 0%Q end.
(** fit and the master problem read the same clock: what the master problem reads during a call lies between the readings of fit around the call. *)
Definition one_clock {D C} (tl : @timeline (D * list Q) C) : Prop :=
  forall k q e q' e' d seen, nth_error tl k = Some (q, e) -> nth_error tl (S k) = Some (q', e') -> In (EvSolveRmp (d, seen)) e -> ascending (q :: seen ++ [q']).

(** The estimators one gets from the constructor by calls of fit that return. *)
Inductive life (ticks : nat -> Q) (sv : fsolvers) (A : targs) (clk : nat -> Q) : fstate (tworld * stopper) (tduals * list Q) path -> Prop :=
| built : forall w, dtree_init A = Ok w -> life ticks sv A clk (new_estimator (w, new_stopper))
| trained : forall s X y fuel s', life ticks sv A clk s -> timed_fit ticks sv A clk X y fuel s = (s', Done tt) -> life ticks sv A clk s'.

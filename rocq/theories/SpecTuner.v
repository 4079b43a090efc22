(** Specifications for the parameter tuner claims (C01-C07); independent of the model. *)
From Verif Require Import Base.
From Coq Require Import Reals Qreals.
Open Scope Q_scope.

(** Batch statistics of a list of numbers. *)
Definition qlen {A} (l : list A) : Q := inject_Z (Z.of_nat (length l)).
Definition batch_mean (l : list Q) : Q := qsum (fun x => x) l / qlen l.
Definition batch_variance (l : list Q) : Q :=
  qsum (fun x => (x - batch_mean l) * (x - batch_mean l)) l / (qlen l - 1).
Definition sample_mean (l : list Q) : Q := if (length l =? 0)%nat then 0 else batch_mean l.
Definition sample_variance (l : list Q) : Q := if (length l <=? 1)%nat then 0 else batch_variance l.

(** What an observer of a tuner sees: a value is registered, a score is given (to an explicit position or to the value
    chosen last), a position is chosen. *)
Inductive tuner_event :=
| Registered (v : Z)
| Scored (s : Q) (i : option nat)
| Chosen (i : nat)
| Silent.

(** Positions are numbered in registration order; [credits] lists the scores credited to each position.  Before the first
    choice the current position is 0; a score for an unknown position is not credited. *)
Fixpoint append_at (cr : list (list Q)) (i : nat) (s : Q) : list (list Q) :=
  match cr, i with
  | [], _ => []
  | l :: cr', O => (l ++ [s]) :: cr'
  | l :: cr', S j => l :: append_at cr' j s
  end.
Definition credit_step (st : list (list Q) * nat) (e : tuner_event) : list (list Q) * nat :=
  let '(cr, cur) := st in
  match e with
  | Registered _ => (cr ++ [[]], cur)
  | Scored s (Some i) => (append_at cr i s, cur)
  | Scored s None => (append_at cr cur s, cur)
  | Chosen i => (cr, i)
  | Silent => (cr, cur)
  end.
Definition credits (log : list tuner_event) : list (list Q) := fst (fold_left credit_step log ([], 0%nat)).
Definition last_chosen (log : list tuner_event) : nat := snd (fold_left credit_step log ([], 0%nat)).
Fixpoint registered (log : list tuner_event) : list Z :=
  match log with
  | [] => []
  | Registered v :: l => v :: registered l
  | _ :: l => registered l
  end.

(** Final score of a position with credited scores [l]. *)
Definition final_score (c_fac : Q) (l : list Q) : Q :=
  match l with [] => 5 | _ => sample_mean l + c_fac / qlen l end.

(** The choices exploitation may make: under-sampled positions if there are any, otherwise positions whose final score
    plus a tenth of the standard deviation reaches every final score. *)
Definition undersampled_pos (cr : list (list Q)) (i : nat) : Prop :=
  exists l, nth_error cr i = Some l /\ (length l < 4)%nat.
Definition near_best_pos (c_fac : Q) (cr : list (list Q)) (i : nat) : Prop :=
  exists l, nth_error cr i = Some l /\
    forall l', In l' cr ->
      (Q2R (final_score c_fac l) + sqrt (Q2R (sample_variance l)) / 10 >= Q2R (final_score c_fac l'))%R.
Definition exploit_choice (c_fac : Q) (cr : list (list Q)) (i : nat) : Prop :=
  undersampled_pos cr i
  \/ (~ (exists j, undersampled_pos cr j)) /\ near_best_pos c_fac cr i.

(** Vocabulary for property C85: what the calls of a user before a given call were, and renaming of labels. *)
From Verif Require Import Base TreeModel LifeModel.
Open Scope nat_scope.

Section Spec.
Context {L : Type}.

(** A table of samples: not empty, at least one column, all rows of the same length. *)
Definition tabular (X : list sample) : Prop := X <> [] /\ exists d, 0 < d /\ Forall (fun x => length x = d) X.
(** Data fit accepts: a table and one label per row. *)
Definition labelled (X : list sample) (y : list L) : Prop := tabular X /\ length y = length X.

(** [X] and [y] are the data of the last call of fit with acceptable data. *)
Definition latest (cs : list (op L)) (X : list sample) (y : list L) : Prop :=
  exists before after, cs = before ++ Fit X y :: after /\ labelled X y /\ forall X' y', In (Fit X' y') after -> ~ labelled X' y'.

(** [v] is the smallest of the labels. *)
Definition smallest (lt : L -> L -> bool) (y : list L) (v : L) : Prop := In v y /\ forall u, In u y -> lt u v = false.
(** [v] is the smallest of the other labels. *)
Definition next_smallest (lt : L -> L -> bool) (y : list L) (v : L) : Prop :=
  exists u, smallest lt y u /\ v <> u /\ In v y /\ forall a, In a y -> a <> u -> lt a v = false.

Definition op_labels (c : op L) : list L := match c with Fit _ y => y | Predict _ => [] end.
Definition is_fit (c : op L) : bool := match c with Fit _ _ => true | Predict _ => false end.
End Spec.

Definition rename_op {L L'} (f : L -> L') (c : op L) : op L' := match c with Fit X y => Fit X (map f y) | Predict X => Predict X end.
Definition rename_reply {L L'} (f : L -> L') (r : reply L) : reply L' :=
  match r with
  | Fitted => Fitted | FitRaised e => FitRaised e | Running => Running
  | Labels ls => Labels (map f ls) | NotFitted => NotFitted | PredictRaised e => PredictRaised e
  end.

(** The object after the calls [cs], what it replied, and what it replies to one more call. *)
Section Seen.
Context {W D C L : Type}.
Variables (k : kind W D C) (lt : L -> L -> bool) (fuel : nat) (w : W).
Definition object_after (cs : list (op L)) : live W D C L := fst (run k lt fuel (fresh w) cs).
Definition replies (cs : list (op L)) : list (reply L) := snd (run k lt fuel (fresh w) cs).
Definition reply_to (cs : list (op L)) (c : op L) : reply L := snd (step k lt fuel (object_after cs) c).
End Seen.

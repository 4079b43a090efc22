(** Specification for C93. *)
From Verif Require Import Base BdrModel SpecBdr.
From Coq Require Import Permutation.
Open Scope nat_scope.

(** Two labelled samples that the rules cannot tell apart: the same label and the same features set. *)
Definition same_sample (a b : list Q * nat) : Prop := snd a = snd b /\ forall j, has (fst a) j = has (fst b) j.
(** Every sample of data set (X', y') is, up to that and as often as it occurs, in (X, y); the order does not matter. *)
Definition rows_among (X' : matrix) (y' : list nat) (X : matrix) (y : list nat) : Prop :=
  exists more rows, Permutation rows (combine X y) /\ Forall2 same_sample (combine X' y' ++ more) rows.
(** Feature [j] of every sample of [X] is feature [f j] of the sample at the same place of [X']: columns may be moved, copied
    and added. *)
Definition features_among (n : nat) (X : matrix) (n' : nat) (X' : matrix) (f : nat -> nat) : Prop :=
  (forall j, j < n -> f j < n') /\ Forall2 (fun r r' => forall j, j < n -> has r' (f j) = has r j) X X'.

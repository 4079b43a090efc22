(** RunningStat of _parameter_tuner.py:6-45 in IEEE binary64 arithmetic (definitions only): the same function as in
    TunerModel.v with every arithmetic operation followed by rounding to nearest even in the format with 53 bits of
    precision and smallest exponent -1074 (gradual underflow).  Overflow is not modelled: a state of this model is the
    Python state as long as no operation overflows.  Counters are converted to floats exactly (they are below 2^53). *)
From Coq Require Import Reals List Bool.
From Flocq Require Import Core.
Import ListNotations.
Open Scope R_scope.

Definition b64_exp : Z -> Z := FLT_exp (-1074) 53.
Definition b64 (x : R) : Prop := generic_format radix2 b64_exp x.
Definition rnd (x : R) : R := round radix2 b64_exp ZnearestE x.

(** Lines 8-12. *)
Record fstat := mkFstat { fs_num : nat; fs_old_mean : R; fs_new_mean : R; fs_old_std : R; fs_new_std : R }.
Definition fs_init : fstat := mkFstat 0 0 0 0 0.

(** clear, lines 14-15. *)
Definition fs_clear (s : fstat) : fstat :=
  mkFstat 0 (fs_old_mean s) (fs_new_mean s) (fs_old_std s) (fs_new_std s).

(** push, lines 17-31. *)
Definition fs_push (s : fstat) (x : R) : fstat :=
  let n := S (fs_num s) in
  if (n =? 1)%nat then mkFstat n x x 0 (fs_new_std s)
  else
    let new_mean := rnd (fs_old_mean s + rnd (rnd (x - fs_old_mean s) / INR n)) in
    let new_std := rnd (fs_old_std s + rnd (rnd (x - fs_old_mean s) * rnd (x - new_mean))) in
    mkFstat n new_mean new_mean new_std new_std.

(** mean, lines 36-37. *)
Definition fs_mean (s : fstat) : R := if (0 <? fs_num s)%nat then fs_new_mean s else 0.

(** variance, lines 39-42. *)
Definition fs_variance (s : fstat) : R :=
  if (1 <? fs_num s)%nat then rnd (fs_new_std s / INR (fs_num s - 1)) else 0.

Inductive fs_op := FPush (x : R) | FClear.
Definition fs_step (s : fstat) (o : fs_op) : fstat := match o with FPush x => fs_push s x | FClear => fs_clear s end.
Definition fs_run (h : list fs_op) : fstat := fold_left fs_step h fs_init.

(** Model of col_gen_estimator/_parameter_tuner.py (definitions only). *)
From Verif Require Import Base.
Open Scope Q_scope.

(** * RunningStat, _parameter_tuner.py:6-45 *)

(** Attributes of RunningStat, lines 8-12.  Floats are exact rationals. *)
Record rstat := mkRstat {
  rs_num : nat;         (* num_data_ *)
  rs_old_mean : Q;      (* old_mean_ *)
  rs_new_mean : Q;      (* new_mean_ *)
  rs_old_std : Q;       (* old_std_ *)
  rs_new_std : Q        (* new_std_ *)
}.

(** RunningStat.__init__, lines 7-12. *)
Definition rs_init : rstat := mkRstat 0 0 0 0 0.

(** RunningStat.clear, lines 14-15: only the counter is reset. *)
Definition rs_clear (s : rstat) : rstat :=
  mkRstat 0 (rs_old_mean s) (rs_new_mean s) (rs_old_std s) (rs_new_std s).

(** RunningStat.push, lines 17-31. *)
Definition rs_push (s : rstat) (x : Q) : rstat :=
  let n := S (rs_num s) in
  if (n =? 1)%nat then
    mkRstat n x x 0 (rs_new_std s)
  else
    let new_mean := rs_old_mean s + (x - rs_old_mean s) / inject_Z (Z.of_nat n) in
    let new_std := rs_old_std s + (x - rs_old_mean s) * (x - new_mean) in
    mkRstat n new_mean new_mean new_std new_std.

(** num_data_values, lines 33-34. *)
Definition rs_num_data_values (s : rstat) : nat := rs_num s.

(** mean, lines 36-37. *)
Definition rs_mean (s : rstat) : Q := if (0 <? rs_num s)%nat then rs_new_mean s else 0.

(** variance, lines 39-42. *)
Definition rs_variance (s : rstat) : Q :=
  if (1 <? rs_num s)%nat then rs_new_std s / inject_Z (Z.of_nat (rs_num s - 1)) else 0.

(** standard_deviation, lines 44-45, is [math.sqrt(variance())].  A square root is not rational; the only use in the
    code is the test of lines 105-109,
      [final_i + standard_deviation_i / 10.0 >= final_best],
    modelled by the equivalent test on the variance: with [d = final_best - final_i],
    [sqrt v / 10 >= d] iff [d <= 0] or [v >= 100 d^2].  TunerRealProofs.v proves this equivalence for the real square
    root.  [math.sqrt] raises ValueError on a negative argument (modelled in [std_test]). *)
Definition std_test (final_i var_i final_best : Q) : res bool :=
  if Qltb var_i 0 then Err ValueError
  else Ok (Qle_bool final_best final_i
           || Qle_bool (100 * ((final_best - final_i) * (final_best - final_i))) var_i).

(** One call on a RunningStat object. *)
Inductive rs_op := RsPush (x : Q) | RsClear.
Definition rs_step (s : rstat) (o : rs_op) : rstat :=
  match o with RsPush x => rs_push s x | RsClear => rs_clear s end.
Definition rs_run (h : list rs_op) : rstat := fold_left rs_step h rs_init.

(** * Parameter, _parameter_tuner.py:48-129 *)

(** Attributes, lines 49-60.  [values_] are integers (the code uses ints and bools).  The state of [random.Random] is the
    number of draws made so far; the draws themselves are the argument [rng] of [get_best_value]. *)
Record param := mkParam {
  pm_values : list Z;          (* values_ *)
  pm_scores : list rstat;      (* scores_ *)
  pm_final : list Q;           (* final_scores_ *)
  pm_counts : list nat;        (* counts_ *)
  pm_cfac : Q;                 (* c_fac_ *)
  pm_cur : nat;                (* current_index_ *)
  pm_total : nat;              (* total_counts_ *)
  pm_draws : nat;              (* state of mt_ *)
  pm_explore : Z;              (* explore_count_ *)
  pm_switch : Z                (* switch_flag_ *)
}.

(** Parameter.__init__, lines 49-60 (name and seed do not influence the modelled behaviour). *)
Definition param_init (c_fac : Q) : param := mkParam [] [] [] [] c_fac 0 0 0 10 1.

(** set_switch_flag, lines 62-63. *)
Definition set_switch_flag (p : param) (v : Z) : param :=
  mkParam (pm_values p) (pm_scores p) (pm_final p) (pm_counts p) (pm_cfac p) (pm_cur p) (pm_total p)
          (pm_draws p) (pm_explore p) v.

(** set_explore_count, lines 65-66. *)
Definition set_explore_count (p : param) (v : Z) : param :=
  mkParam (pm_values p) (pm_scores p) (pm_final p) (pm_counts p) (pm_cfac p) (pm_cur p) (pm_total p)
          (pm_draws p) v (pm_switch p).

(** adjust_score, lines 68-75.  [index] is a non-negative index (Python's negative indices are not modelled); an index out
    of range raises IndexError on line 71 before anything is changed. *)
Definition adjust_score (p : param) (score : Q) (index : option nat) : res param :=
  let i := match index with None => pm_cur p | Some j => j end in
  let* s := getitem (pm_scores p) i in
  let s' := rs_push s score in
  let* c := getitem (pm_counts p) i in
  let c' := S c in
  let* _ := getitem (pm_final p) i in
  Ok (mkParam (pm_values p) (set_nth (pm_scores p) i s')
        (set_nth (pm_final p) i (rs_mean s' + pm_cfac p / inject_Z (Z.of_nat c')))
        (set_nth (pm_counts p) i c') (pm_cfac p) (pm_cur p) (S (pm_total p))
        (pm_draws p) (pm_explore p) (pm_switch p)).

(** add_value, lines 77-81. *)
Definition add_value (p : param) (v : Z) : param :=
  mkParam (pm_values p ++ [v]) (pm_scores p ++ [rs_init]) (pm_final p ++ [5]) (pm_counts p ++ [0%nat])
          (pm_cfac p) (pm_cur p) (pm_total p) (pm_draws p) (pm_explore p) (pm_switch p).

(** [mt_.randrange(n)] (CPython): ValueError for an empty range, otherwise some number below [n].  [rng k] is the raw
    [k]-th draw; every result below [n] is obtained by some [rng]. *)
Definition randrange (rng : nat -> nat) (k n : nat) : res nat :=
  match n with O => Err ValueError | S _ => Ok (rng k mod n)%nat end.

(** Lines 99-101: first index with the largest final score. *)
Definition argmax_final (final : list Q) (n : nat) : nat :=
  fold_left (fun best i => if Qltb (nth best final 0) (nth i final 0) then i else best) (seq 0 n) 0%nat.

(** Lines 95-96. *)
Definition undersampled (counts : list nat) (n : nat) : list nat :=
  filter (fun i => nth i counts 0 <? 4)%nat (seq 0 n).

(** Lines 103-110. *)
Fixpoint near_best (p : param) (best : nat) (l : list nat) : res (list nat) :=
  match l with
  | [] => Ok []
  | i :: l' =>
      let* b := std_test (nth i (pm_final p) 0) (rs_variance (nth i (pm_scores p) rs_init))
                         (nth best (pm_final p) 0) in
      let* r := near_best p best l' in
      Ok (if b then i :: r else r)
  end.

(** Lines 94-117: the index chosen by exploitation, with the number of draws used.
    List lookups use [nth] with a default; the lists always have the length of [values_] (proved in TunerProofs.v), so the
    default is never used. *)
Definition exploit_index (p : param) (rng : nat -> nat) : res (nat * nat) :=
  let n := length (pm_values p) in
  let* bucket :=
    match undersampled (pm_counts p) n with
    | [] => near_best p (argmax_final (pm_final p) n) (seq 0 n)
    | b => Ok b
    end in
  let* _ := assert (0 <? length bucket)%nat in
  if (1 <? length bucket)%nat then
    let* k := randrange rng (pm_draws p) (length bucket) in
    Ok (nth k bucket 0%nat, S (pm_draws p))
  else Ok (nth 0 bucket 0%nat, pm_draws p).

(** Lines 86-93: the index chosen by exploration. [self.switch_flag_ & self.explore_count_ > 0] parses as
    [(switch & explore) > 0]. *)
Definition explore_index (p : param) (rng : nat -> nat) : res (nat * nat) :=
  if (length (pm_values p) =? 2)%nat then
    Ok (if (0 <? Z.land (pm_switch p) (pm_explore p))%Z then 1%nat else 0%nat, pm_draws p)
  else
    let* k := randrange rng (pm_draws p) (length (pm_values p)) in
    Ok (k, S (pm_draws p)).

(** get_best_value, lines 83-120. Exceptions are raised before any attribute is assigned. *)
Definition get_best_value (rng : nat -> nat) (p : param) : res (Z * param) :=
  let exploring := (0 <? pm_explore p)%Z in
  let* (i, draws) := (if exploring then explore_index p rng else exploit_index p rng) in
  let* v := getitem (pm_values p) i in
  Ok (v, mkParam (pm_values p) (pm_scores p) (pm_final p) (pm_counts p) (pm_cfac p) i (pm_total p) draws
           (if exploring then pm_explore p - 1 else pm_explore p)%Z (pm_switch p)).

(** One call on a Parameter object; an exception leaves the object unchanged. *)
Inductive tuner_op :=
| TAdd (v : Z) | TSwitch (f : Z) | TExplore (n : Z) | TAdjust (s : Q) (i : option nat) | TBest.
Inductive tuner_out := TDone | TVal (v : Z) | TErr (e : exn).

Definition tuner_step (rng : nat -> nat) (p : param) (o : tuner_op) : param * tuner_out :=
  match o with
  | TAdd v => (add_value p v, TDone)
  | TSwitch f => (set_switch_flag p f, TDone)
  | TExplore n => (set_explore_count p n, TDone)
  | TAdjust s i => match adjust_score p s i with Ok p' => (p', TDone) | Err e => (p, TErr e) end
  | TBest => match get_best_value rng p with Ok (v, p') => (p', TVal v) | Err e => (p, TErr e) end
  end.

Fixpoint tuner_run (rng : nat -> nat) (p : param) (h : list tuner_op) : param * list tuner_out :=
  match h with
  | [] => (p, [])
  | o :: h' => let '(p1, out) := tuner_step rng p o in
               let '(p2, outs) := tuner_run rng p1 h' in (p2, out :: outs)
  end.

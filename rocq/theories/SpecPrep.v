(** What the experiment script's whole data preparation should deliver (statement side only). *)
From Verif Require Import Base Lp TreeModel TreeFitModel ExpModel SpecTree SpecTreeRun SpecTreeLp SpecExp.
Open Scope nat_scope.

(** CART tree [c] makes the test "feature [f] <= [t]" at heap position [h]. *)
Definition tests_at (c : cart) (h f : nat) (t : Q) : Prop := exists i, positioned c i h /\ cart_test c i f t.
Definition has_test (c : cart) (h : nat) : Prop := exists f t, tests_at c h f t.
(** A CART tree of depth at most [d] for samples with [m] features. *)
Definition cart_for (d m : nat) (c : cart) : Prop := cart_ok c /\ forall h f t, tests_at c h f t -> h < 2 ^ d - 1 /\ f < m.
(** How many candidates node [h] may keep (lines 146-147). *)
Definition quota (d h : nat) : nat := (if h =? 0 then 150 else 100) / (2 ^ d - 1).

(** The input of the preparation: depth, CART trees that are all for this depth and the samples' features, samples and
    their classes.  Some tree tests something. *)
Record experiment (d : nat) (cs : list cart) (final : cart) (extra : list cart) (X : list sample) (y : list nat) : Prop := {
  ex_depth : 1 <= d;
  ex_rows : 0 < length X;
  ex_labels : length y = length X;
  ex_carts : exists m, Forall (fun x => length x = m) X /\ Forall (cart_for d m) (cs ++ final :: extra);
  ex_test : exists c h, In c (cs ++ [final]) /\ has_test c h
}.

(** [n] of the trees [cs] make the test (f, t) at position [h]. *)
Definition votes (cs : list cart) (h f : nat) (t : Q) (n : nat) : Prop :=
  exists is, NoDup is /\ length is = n /\ forall i, In i is <-> exists c t', nth_error cs i = Some c /\ tests_at c h f t' /\ (t' == t)%Q.
(** The trees [cs] have one vote each, the final tree has 1000. *)
Definition support (cs : list cart) (final : cart) (h f : nat) (t : Q) (n : nat) : Prop :=
  exists m, votes cs h f t m /\
    (((exists t', tests_at final h f t' /\ (t' == t)%Q) /\ n = m + 1000) \/ (~ (exists t', tests_at final h f t' /\ (t' == t)%Q) /\ n = m)).
Definition made_at (cs : list cart) (h f : nat) (t : Q) : Prop := exists c t', In c cs /\ tests_at c h f t' /\ (t' == t)%Q.
(** Node [h] keeps the test: it is made there, and at most [quota d h] different tests (itself among them) have as much
    support there. *)
Definition kept_at (d : nat) (cs : list cart) (final : cart) (h f : nat) (t : Q) : Prop :=
  made_at (cs ++ [final]) h f t /\
  exists l : list (nat * Q), length l <= quota d h /\
    forall n, support cs final h f t n -> forall c f' t' n', In c (cs ++ [final]) -> tests_at c h f' t' -> support cs final h f' t' n' -> n <= n' ->
      exists t'', In (f', t'') l /\ (t'' == t')%Q.
(** Node [h] does not keep the test: trees make tests there, and if this is one of them, [quota d h] different ones have more support. *)
Definition dropped_at (d : nat) (cs : list cart) (final : cart) (h f : nat) (t : Q) : Prop :=
  (exists c, In c (cs ++ [final]) /\ has_test c h) /\
  (made_at (cs ++ [final]) h f t ->
   exists l : list (nat * Q), quota d h <= length l /\ ForallOrdPairs (fun a b => ~ (fst a = fst b /\ (snd a == snd b)%Q)) l /\
     forall f' t', In (f', t') l -> made_at (cs ++ [final]) h f' t' /\
       forall n n', support cs final h f t n -> support cs final h f' t' n' -> n < n').
(** [c] is the last of the trees [cs] to make a test at [h]; it is (f, t). *)
Definition last_test (cs : list cart) (h f : nat) (t : Q) : Prop :=
  exists us c vs, cs = us ++ c :: vs /\ tests_at c h f t /\ Forall (fun c' => ~ has_test c' h) vs.

(** No initial path loses a split: at every node the final tree has a test or the last one made by the others is kept. *)
Definition initial_kept (d : nat) (cs : list cart) (final : cart) : Prop :=
  length cs < 1000 /\ forall h, h < 2 ^ d - 1 -> 1 <= quota d h /\ (has_test final h \/ forall f t, last_test cs h f t -> kept_at d cs final h f t).
(** Every test of the [extra] trees is kept at its node, or is made nowhere by the others, or is kept nowhere. *)
Definition extra_kept (d : nat) (cs : list cart) (final : cart) (extra : list cart) : Prop :=
  forall c h f t, In c extra -> tests_at c h f t ->
    kept_at d cs final h f t \/
    (forall h', ~ made_at (cs ++ [final]) h' f t) \/
    (forall h', h' < 2 ^ d - 1 -> dropped_at d cs final h' f t).
(** Tree [c] has a test at every node of a tree of depth [d], and all are kept. *)
Definition full_tree (d : nat) (cs : list cart) (final c : cart) : Prop :=
  forall h, h < 2 ^ d - 1 -> exists f t, tests_at c h f t /\ kept_at d cs final h f t.

(** The arguments of DTreeClassifier after the preparation (lines 296-309); the options are arbitrary. *)
Definition prepared_args (d : nat) (y : list nat) (out : list path * list leaf * list node * list split * list row)
    (max_iterations : Z) (time_limit : Q) (rounds : nat) (beta gen old : bool) : targs :=
  let '(paths, leaves, nodes, splits, rows) := out in
  mkTargs paths leaves nodes splits d (unique_classes y) max_iterations time_limit rounds beta gen (Some rows) old.

(** The classes are 0, 1, ..., k. *)
Definition contiguous (y : list nat) : Prop := forall t, t <= list_max y -> In t y.

(** A CART tree with the classes [label] at its leaves assigns class [t] to sample [x]. *)
Definition cart_class (c : cart) (label : nat -> nat) (x : sample) (t : nat) : Prop :=
  exists k i, descends c x k i /\ ~ inner c i /\ label i = t.
(** [rs] are the training rows to which [assigns] assigns their class. *)
Definition right_rows (X : list sample) (y : list nat) (assigns : sample -> nat -> Prop) (rs : list nat) : Prop :=
  NoDup rs /\ forall r, In r rs <-> exists x t, nth_error X r = Some x /\ nth_error y r = Some t /\ assigns x t.

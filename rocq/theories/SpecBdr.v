(** Specification of boolean decision rules and of problems (1) and (2) in the docstring of _bdr_classifier.py,
    written without the functions of BdrModel.v (only its type abbreviations are used). *)
From Verif Require Import Base Lp BdrModel SpecDual.
From Coq Require Import Sorted.
Open Scope nat_scope.

(** A data set as fit sees it: at least one sample, n features each, one label 0 or 1 per sample. *)
Definition dataset (n : nat) (X : matrix) (y : list nat) : Prop :=
  X <> [] /\ length X = length y /\ Forall (fun r => length r = n) X /\ Forall (fun t => t = 0 \/ t = 1) y.
Definition clause_over (n : nat) (k : clause) : Prop := Forall (fun j => j < n) k.

(** Feature [j] of a sample is set; a clause is a conjunction; a rule is a disjunction of clauses. *)
Definition has (row : list Q) (j : nat) : bool :=
  match nth_error row j with Some q => negb (Qeq_bool q 0) | None => false end.
Definition accepts (row : list Q) (k : clause) : bool := forallb (has row) k.
Definition rule_accepts (row : list Q) (rule : list clause) : bool := existsb (accepts row) rule.

Definition positives (X : matrix) (y : list nat) : matrix := map fst (filter (fun s => snd s =? 1) (combine X y)).
Definition negatives (X : matrix) (y : list nat) : matrix := map fst (filter (fun s => snd s =? 0) (combine X y)).
Definition false_positives (X : matrix) (y : list nat) (k : clause) : nat :=
  length (filter (fun r => accepts r k) (negatives X y)).
Definition complexity (k : clause) : nat := 1 + length k.

(** Problem (1) for a weighted list of clauses: [xi] penalties of the positive samples in order, [(k, w)] clause and weight. *)
Definition p1_feasible (X : matrix) (y : list nat) (C : Z) (xi : list Q) (K : list (clause * Q)) : Prop :=
  Forall2 (fun r q => (0 <= q /\ 1 <= q + qsum (fun kw => if accepts r (fst kw) then snd kw else 0) K)%Q)
          (positives X y) xi
  /\ Forall (fun kw => (0 <= snd kw)%Q) K
  /\ (qsum (fun kw => qn (complexity (fst kw)) * snd kw) K <= inject_Z C)%Q.
Definition p1_objective (X : matrix) (y : list nat) (p : Q) (xi : list Q) (K : list (clause * Q)) : Q :=
  (p * qsum (fun q => q) xi + qsum (fun kw => qn (false_positives X y (fst kw)) * snd kw) K)%Q.

(** The same as a solver model for a fixed list of clauses [K]: first the penalties, then the clause weights. *)
Definition problem1 (X : matrix) (y : list nat) (C : Z) (p : Q) (K : list clause) : lp :=
  let np := length (positives X y) in
  let clause_row (f : clause -> nat) (j : nat) : Q :=
    match nth_error K (j - np) with Some k => qn (f k) | None => 0%Q end in
  mkLp (repeat (mkVar (Some 0%Q) None true) (np + length K))
       (fun j => if j <? np then p else clause_row (false_positives X y) j) 0%Q false
       (mkCon None (Some (inject_Z C)) (fun j => if j <? np then 0%Q else clause_row complexity j)
        :: map (fun ir => mkCon (Some 1%Q) None
                  (fun j => if j <? np then (if j =? fst ir then 1%Q else 0%Q)
                            else clause_row (fun k => if accepts (snd ir) k then 1 else 0) j))
               (combine (seq 0 np) (positives X y))).

(** The clauses in the master after a history of add_column calls: the empty clause, then every offered clause that is not
    empty and not there yet. *)
Definition clause_dec := list_eq_dec Nat.eq_dec.
Definition kept (K : list clause) (k : clause) : list clause :=
  if in_dec clause_dec k K then K else match k with [] => K | _ => K ++ [k] end.
Definition master_clauses (h : list clause) : list clause := fold_left kept h [[]].

(** Reduced cost of a clause for multipliers [lam] of the complexity constraint and [mu] of the positive samples. *)
Definition clause_cost (X : matrix) (y : list nat) (lam : Q) (mu : list Q) (k : clause) : Q :=
  (lam * qn (complexity k)
   - qsum (fun rm => if accepts (fst rm) k then snd rm else 0) (combine (positives X y) mu)
   + qn (false_positives X y k))%Q.

(** Strictly increasing lists. *)
Definition increasing (l : list nat) : Prop := StronglySorted lt l.
(** Order in which the heuristic looks at clauses: shorter first, lexicographic within a size. *)
Fixpoint lex (a b : list nat) : Prop :=
  match a, b with
  | x :: a', y :: b' => x < y \/ x = y /\ lex a' b'
  | _, _ => False
  end.
Definition before (a b : clause) : Prop := length a < length b \/ length a = length b /\ lex a b.

(** Training loss of a rule as predict applies it: weighted missed positives plus accepted negatives. *)
Definition rule_loss (X : matrix) (y : list nat) (p : Q) (rule : list clause) : Q :=
  (p * qn (length (filter (fun r => negb (rule_accepts r rule)) (positives X y)))
   + qn (length (filter (fun r => rule_accepts r rule) (negatives X y))))%Q.

(** Feature-wise order on samples: every set feature stays set. *)
Definition below (r r' : list Q) : Prop := forall j, has r j = true -> has r' j = true.

(** * Problem (2), clause pricing *)

(** Features a sample does not have. *)
Definition zeros (n : nat) (r : list Q) : list nat := filter (fun j => negb (has r j)) (seq 0 n).

(** Objective coefficients of the samples: minus its multiplier for a positive sample, 1 for a negative one. *)
Fixpoint sample_costs (y : list nat) (mu : list Q) : list Q :=
  match y with
  | [] => []
  | t :: y' => if t =? 1 then match mu with m :: mu' => (- m)%Q :: sample_costs y' mu' | [] => 0%Q :: sample_costs y' [] end
               else 1%Q :: sample_costs y' mu
  end.

(** Variables: z_0..z_{n-1} (feature selected), then delta_i (sample i satisfies the clause). *)
Definition problem2 (n : nat) (X : matrix) (y : list nat) (D : Z) (lam : Q) (mu : list Q) : lp :=
  mkLp (repeat (mkVar (Some 0%Q) (Some 1%Q) true) (n + length X))
       (fun j => if j <? n then lam else nth (j - n) (sample_costs y mu) 0%Q) lam false
       (flat_map (fun irt =>
            let '(i, (r, t)) := irt in
            if t =? 1 then map (fun j => mkCon (Some 0%Q) (Some 1%Q)
                                  (fun v => if (v =? n + i) || (v =? j) then 1%Q else 0%Q)) (zeros n r)
            else [mkCon (Some 1%Q) None (fun v => if (v =? n + i) || memb v (zeros n r) then 1%Q else 0%Q)])
          (combine (seq 0 (length X)) (combine X y))
        ++ [mkCon (Some 0%Q) (Some (inject_Z D)) (fun v => if v <? n then 1%Q else 0%Q)]).

(** The clause described by a solution of problem (2). *)
Definition selected (n : nat) (x : nat -> Q) : clause := filter (fun j => Qltb 0 (x j)) (seq 0 n).

(** * Runs *)

(** Lists of clauses a master can hold: the empty clause is there, no repetition, clauses sorted. *)
Definition clause_pool (n : nat) (K : list clause) : Prop :=
  In [] K /\ NoDup K /\ Forall increasing K /\ Forall (clause_over n) K.

(** The LP solver solves every restricted master exactly. *)
Definition exact_rmp (n : nat) (X : matrix) (y : list nat) (C : Z) (p : Q) (solve : nat -> lp -> (nat -> Q) * (nat -> Q)) : Prop :=
  forall t m K, clause_pool n K -> same_lp m (problem1 X y C p K) -> lp_kkt m (fst (solve t m)) (snd (solve t m)).
(** The LP solver reports duals whose signs and reduced costs are right up to [tau], and duals of the positive samples that are
    not negative (the code asserts the latter and takes the absolute value of the dual of the complexity constraint). *)
Definition near_rmp (n : nat) (X : matrix) (y : list nat) (C : Z) (p tau : Q) (solve : nat -> lp -> (nat -> Q) * (nat -> Q)) : Prop :=
  forall t m K, clause_pool n K -> same_lp m (problem1 X y C p K) ->
  near_dual m (snd (solve t m)) tau /\ forall c, 0 < c < num_cons m -> (0 <= snd (solve t m) c)%Q.
(** The LP solver's solutions are exact and its duals are exact up to [tau] each. *)
Definition exact_up_to (tau : Q) (n : nat) (X : matrix) (y : list nat) (C : Z) (p : Q) (solve : nat -> lp -> (nat -> Q) * (nat -> Q)) : Prop :=
  forall t m K, clause_pool n K -> same_lp m (problem1 X y C p K) ->
  exists pi, lp_kkt m (fst (solve t m)) pi /\ forall c, (pi c - tau <= snd (solve t m) c <= pi c + tau)%Q.
(** The pricing solver answers every pricing problem with a feasible (optimal, optimal up to [g]) point. *)
Definition complete_pricing (n : nat) (X : matrix) (y : list nat) (D : Z) (solve : nat -> lp -> option (nat -> Q)) : Prop :=
  forall t m lam mu, (0 <= lam)%Q -> Forall (fun q => 0 <= q)%Q mu -> length mu = length (positives X y) ->
  same_lp m (problem2 n X y D lam mu) ->
  exists x, solve t m = Some x /\ ip_feasible m x.
Definition exact_pricing (n : nat) (X : matrix) (y : list nat) (D : Z) (solve : nat -> lp -> option (nat -> Q)) : Prop :=
  forall t m lam mu, (0 <= lam)%Q -> Forall (fun q => 0 <= q)%Q mu -> length mu = length (positives X y) ->
  same_lp m (problem2 n X y D lam mu) ->
  exists x, solve t m = Some x /\ ip_optimal m x.
Definition near_pricing (n : nat) (X : matrix) (y : list nat) (D : Z) (g : Q) (solve : nat -> lp -> option (nat -> Q)) : Prop :=
  forall t m lam mu, (0 <= lam)%Q -> Forall (fun q => 0 <= q)%Q mu -> length mu = length (positives X y) ->
  same_lp m (problem2 n X y D lam mu) ->
  exists x, solve t m = Some x /\ near_optimal m x g.
(** The integer solver finds a feasible (optimal, optimal up to [g]) point of every restricted master. *)
Definition complete_ip (n : nat) (X : matrix) (y : list nat) (C : Z) (p : Q) (solve : nat -> lp -> option (nat -> Q)) : Prop :=
  forall t m K, clause_pool n K -> same_lp m (problem1 X y C p K) -> exists x, solve t m = Some x /\ ip_feasible m x.
Definition exact_ip (n : nat) (X : matrix) (y : list nat) (C : Z) (p : Q) (solve : nat -> lp -> option (nat -> Q)) : Prop :=
  forall t m K, clause_pool n K -> same_lp m (problem1 X y C p K) -> exists x, solve t m = Some x /\ ip_optimal m x.
Definition near_ip (n : nat) (X : matrix) (y : list nat) (C : Z) (p g : Q) (solve : nat -> lp -> option (nat -> Q)) : Prop :=
  forall t m K, clause_pool n K -> same_lp m (problem1 X y C p K) -> exists x, solve t m = Some x /\ near_optimal m x g.

(** Objective of problem (1) for a rule taken with weight 1 per clause: weighted missed positives plus, for every clause, the
    negatives it accepts (an accepted negative counts once per clause that accepts it). *)
Definition rule_cost (X : matrix) (y : list nat) (p : Q) (rule : list clause) : Q :=
  (p * qn (length (filter (fun r => negb (rule_accepts r rule)) (positives X y)))
   + qn (nsum (false_positives X y) rule))%Q.

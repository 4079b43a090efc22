(** An exact solver for small 0/1 programs, by enumeration: witnesses for the examples. *)
From Verif Require Import Base Lp LpProofs LpCheck.
Open Scope Q_scope.

Definition binary (v : lpvar) : bool :=
  match v_lb v, v_ub v with Some a, Some b => Qeq_bool a 0 && Qeq_bool b 1 && v_int v | _, _ => false end.
Fixpoint all_bits (n : nat) : list (list bool) :=
  match n with O => [[]] | S n' => map (cons true) (all_bits n') ++ map (cons false) (all_bits n') end.
Definition bit_point (bs : list bool) (j : nat) : Q := if nth j bs false then 1 else 0.
Definition better (m : lp) (best : option (list bool)) (bs : list bool) : option (list bool) :=
  if feasibleb m (bit_point bs) then
    match best with
    | None => Some bs
    | Some b => if Qltb (objective_value m (bit_point b)) (objective_value m (bit_point bs)) then Some bs else best
    end
  else best.
(** The best feasible 0/1 point of a maximisation problem. *)
Definition brute (m : lp) : option (nat -> Q) :=
  if forallb binary (lp_vars m) && lp_max m
  then option_map bit_point (fold_left (better m) (all_bits (num_vars m)) None) else None.

Lemma in_boundsb_iff lb ub q : in_boundsb lb ub q = true <-> in_bounds lb ub q.
Proof.
  split; [apply in_boundsb_ok|]. intros [H1 H2]. unfold in_boundsb. apply andb_true_iff. split.
  - destruct lb; auto. apply Qle_bool_iff. auto.
  - destruct ub; auto. apply Qle_bool_iff. auto.
Qed.
Lemma in_indexed {A} (l : list A) j a : In (j, a) (indexed l) -> nth_error l j = Some a.
Proof.
  unfold indexed. intros H. assert (G : forall l s, In (j, a) (combine (seq s (length l)) l) -> (s <= j)%nat /\ nth_error l (j - s) = Some a).
  { induction l0 as [|b l0 IH]; intros s Hin; [destruct Hin|]. cbn in Hin. destruct Hin as [E|Hin].
    - injection E as <- <-. rewrite Nat.sub_diag. auto.
    - apply IH in Hin. destruct Hin as [H1 H2]. split; [lia|]. replace (j - s)%nat with (S (j - S s)) by lia. exact H2. }
  destruct (G l 0%nat H) as [_ E]. rewrite Nat.sub_0_r in E. exact E.
Qed.
Lemma feasibleb_iff m x : feasibleb m x = true <-> lp_feasible m x.
Proof.
  split; [apply feasibleb_ok|]. intros [H1 H2]. unfold feasibleb. apply andb_true_iff. split; apply forallb_forall.
  - intros [j v] Hin. apply in_boundsb_iff, H1, in_indexed. auto.
  - intros k Hin. apply In_nth_error in Hin. destruct Hin as [i Hi]. apply in_boundsb_iff. eauto.
Qed.
Lemma all_bits_In bs : In bs (all_bits (length bs)).
Proof. induction bs as [|b bs IH]; [left; reflexivity|]. cbn [length all_bits]. apply in_or_app. destruct b; [left|right]; apply in_map; auto. Qed.

Section Same.
Variables (m : lp) (x y : nat -> Q).
Hypothesis Hxy : forall j, (j < num_vars m)%nat -> x j == y j.
Lemma activity_same k : activity m k x == activity m k y.
Proof. unfold activity. apply qsum_ext. intros j Hj. apply in_seq in Hj. rewrite Hxy by lia. reflexivity. Qed.
Lemma objective_same : objective_value m x == objective_value m y.
Proof. unfold objective_value. apply Qplus_comp; [|reflexivity]. apply qsum_ext. intros j Hj. apply in_seq in Hj. rewrite Hxy by lia. reflexivity. Qed.
Lemma feasible_same : lp_feasible m x -> lp_feasible m y.
Proof.
  intros [H1 H2]. split.
  - intros j v E. assert (Hj : (j < num_vars m)%nat) by (apply nth_error_Some; congruence). destruct (H1 j v E) as [A B]. split; intros b Hb; rewrite <- (Hxy j Hj); auto.
  - intros i k E. destruct (H2 i k E) as [A B]. split; intros b Hb; rewrite <- activity_same; auto.
Qed.
End Same.

Lemma fold_better m l : forall best, 
  (forall b, best = Some b -> lp_feasible m (bit_point b)) ->
  let r := fold_left (better m) l best in
  (forall b, r = Some b -> lp_feasible m (bit_point b)) /\
  (forall b, In b l \/ best = Some b -> lp_feasible m (bit_point b) -> exists b', r = Some b' /\ objective_value m (bit_point b) <= objective_value m (bit_point b')).
Proof.
  induction l as [|c l IH]; intros best Hb; cbn [fold_left].
  - split; auto. intros b [[]|E] _. exists b. split; auto. lra.
  - assert (Hb' : forall b, better m best c = Some b -> lp_feasible m (bit_point b)).
    { intros b. unfold better. destruct (feasibleb m (bit_point c)) eqn:Ef; auto. apply feasibleb_ok in Ef.
      destruct best as [b0|]; [destruct (Qltb _ _)|]; intros E; try (injection E as <-; auto). }
    destruct (IH (better m best c) Hb') as [I1 I2]. split; auto. intros b Hin Hf.
    assert (Hstep : exists b1, better m best c = Some b1 /\ ((b = c \/ best = Some b) -> objective_value m (bit_point b) <= objective_value m (bit_point b1)) \/ (In b l)).
    { destruct Hin as [[<-|Hin]|E]; [|exists b; auto|].
      - unfold better. rewrite (proj2 (feasibleb_iff m _) Hf). destruct best as [b0|].
        + destruct (Qltb _ _) eqn:El.
          * exists c. left. split; auto. intros [_|E]; [lra|]. injection E as ->. lra.
          * exists b0. left. split; auto. apply Qltb_false in El. intros _. lra.
        + exists c. left. split; auto. intros _. lra.
      - subst best. unfold better. destruct (feasibleb m (bit_point c)); [|exists b; left; split; auto; lra].
        destruct (Qltb _ _) eqn:El; [apply Qltb_true in El; exists c; left; split; auto; intros _; lra|exists b; left; split; auto; lra]. }
    destruct Hstep as (b1 & [[E1 H1]|H1]); [|apply I2; auto].
    destruct Hin as [[<-|Hin]|E]; [|apply I2; auto|].
    + destruct (I2 b1) as (b' & E' & H'); auto. exists b'. split; auto. specialize (H1 (or_introl eq_refl)). lra.
    + destruct (I2 b1) as (b' & E' & H'); auto. exists b'. split; auto. specialize (H1 (or_intror E)). lra.
Qed.

Lemma binary_value v q : binary v = true -> in_bounds (v_lb v) (v_ub v) q -> (v_int v = true -> exists z : Z, q == inject_Z z) -> q == 0 \/ q == 1.
Proof.
  unfold binary. destruct (v_lb v) as [a|]; [|discriminate]. destruct (v_ub v) as [b|]; [|discriminate]. intros H [H1 H2] Hz.
  apply andb_true_iff in H. destruct H as [H Hi]. apply andb_true_iff in H. destruct H as [Ha Hb]. apply Qeq_bool_iff in Ha, Hb.
  destruct (Hz Hi) as [z Ez]. specialize (H1 a eq_refl). specialize (H2 b eq_refl).
  assert (L : inject_Z 0 <= inject_Z z) by (change (inject_Z 0) with 0; lra). assert (U : inject_Z z <= inject_Z 1) by (change (inject_Z 1) with 1; lra).
  rewrite <- Zle_Qle in L, U. assert (E : (z = 0 \/ z = 1)%Z) by lia. destruct E as [->| ->]; auto.
Qed.

Theorem brute_optimal m x : brute m = Some x -> ip_optimal m x.
Proof.
  unfold brute. destruct (forallb binary (lp_vars m) && lp_max m) eqn:Eb; [|discriminate]. apply andb_true_iff in Eb. destruct Eb as [Hb Hm].
  rewrite forallb_forall in Hb. destruct (fold_better m (all_bits (num_vars m)) None) as [F1 F2]; [discriminate|].
  destruct (fold_left (better m) (all_bits (num_vars m)) None) as [b|] eqn:E; [|discriminate]. cbn [option_map]. intros Ex. injection Ex as <-.
  split.
  - split; [apply F1; auto|]. intros j v _ _. unfold bit_point. destruct (nth j b false); [exists 1%Z|exists 0%Z]; reflexivity.
  - intros x' [Hf Hi]. unfold as_good. rewrite Hm.
    set (bs := map (fun j => Qltb (1 # 2) (x' j)) (seq 0 (num_vars m))).
    assert (Hs : forall j, (j < num_vars m)%nat -> x' j == bit_point bs j).
    { intros j Hj. unfold bit_point, bs. destruct (nth_error (lp_vars m) j) as [v|] eqn:Ev; [|apply nth_error_None in Ev; unfold num_vars in Hj; lia].
      assert (E1 : nth j (map (fun j => Qltb (1 # 2) (x' j)) (seq 0 (num_vars m))) false = Qltb (1 # 2) (x' j)).
      { apply nth_error_nth. rewrite nth_error_map, seq_nth_error by auto. reflexivity. }
      rewrite E1. destruct (binary_value v (x' j)) as [E0|E0].
      - apply Hb. eapply nth_error_In; eauto.
      - apply (proj1 Hf). auto.
      - apply Hi. auto.
      - destruct (Qltb (1 # 2) (x' j)) eqn:El; [apply Qltb_true in El; lra|auto].
      - destruct (Qltb (1 # 2) (x' j)) eqn:El; [auto|apply Qltb_false in El; lra]. }
    destruct (F2 bs) as (b' & E' & H').
    + left. replace (num_vars m) with (length bs) by (unfold bs; rewrite map_length, seq_length; reflexivity). apply all_bits_In.
    + eapply feasible_same; eauto.
    + injection E' as <-. rewrite (objective_same m x' (bit_point bs) Hs). exact H'.
Qed.

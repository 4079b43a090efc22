(** Lemmas about the boolean rule master problem. *)
From Verif Require Import Base Lp LpProofs BdrModel SpecBdr.
Open Scope nat_scope.
Local Arguments Nat.ltb _ _ : simpl never.
Local Arguments Nat.sub _ _ : simpl never.

(** * Clauses on samples *)

Lemma satisfies_clause_ok n r k : length r = n -> clause_over n k ->
  satisfies_clause r k = Ok (if accepts r k then 1 else 0).
Proof.
  intros Hr Hk. induction Hk as [|j k Hj Hk IH]; simpl; auto.
  unfold has, getitem. destruct (nth_error r j) as [q|] eqn:E.
  - simpl. destruct (Qeq_bool q 0); simpl; auto.
  - apply nth_error_None in E. lia.
Qed.

Lemma clause_eqb_eq a b : clause_eqb a b = true <-> a = b.
Proof. unfold clause_eqb. destruct (list_eq_dec Nat.eq_dec a b); split; intros; congruence. Qed.

(** * Loops over the samples *)

Lemma for_each_ext {A S} (l : list A) (f g : A -> S -> res S) s :
  (forall a s, In a l -> f a s = g a s) -> for_each l f s = for_each l g s.
Proof.
  revert s; induction l as [|a l IH]; intros s H; simpl; auto.
  rewrite H by (left; auto). destruct (g a s); simpl; auto. apply IH. intros; apply H; right; auto.
Qed.

Lemma getitem_app_r {A} (l m : list A) i : getitem (l ++ m) (length l + i) = getitem m i.
Proof. unfold getitem. rewrite nth_error_app2 by lia. replace (length l + i - length l) with i by lia. auto. Qed.

Lemma for_each_rows {A B St} (X : list A) (y : list B) (f : A -> B -> St -> res St) : length X = length y -> forall s,
  for_each (seq 0 (length X)) (fun i st => let* e := getitem X i in let* t := getitem y i in f e t st) s
  = for_each (combine X y) (fun et st => f (fst et) (snd et) st) s.
Proof.
  intros HL.
  assert (G : forall X' y' preX prey s, X = preX ++ X' -> y = prey ++ y' -> length preX = length prey -> length X' = length y' ->
    for_each (seq (length preX) (length X')) (fun i st => let* e := getitem X i in let* t := getitem y i in f e t st) s
    = for_each (combine X' y') (fun et st => f (fst et) (snd et) st) s).
  { induction X' as [|a X' IH]; intros [|b y'] preX prey s EX EY Hpre Hl; simpl in *; try discriminate; auto.
    assert (G1 : getitem X (length preX) = Ok a).
    { rewrite EX. rewrite <- (Nat.add_0_r (length preX)). rewrite getitem_app_r. reflexivity. }
    assert (G2 : getitem y (length preX) = Ok b).
    { rewrite EY, Hpre. rewrite <- (Nat.add_0_r (length prey)). rewrite getitem_app_r. reflexivity. }
    rewrite G1, G2. simpl. destruct (f a b s) as [s1|]; simpl; auto.
    replace (S (length preX)) with (length (preX ++ [a])) by (rewrite app_length; simpl; lia).
    apply (IH y' (preX ++ [a]) (prey ++ [b])).
    - rewrite <- app_assoc. auto.
    - rewrite <- app_assoc. auto.
    - rewrite !app_length. simpl. lia.
    - lia. }
  intros s. apply (G X y [] []); auto.
Qed.

Section Data.
Variables (n : nat) (X : matrix) (y : list nat).
Hypothesis HD : dataset n X y.

Lemma data_lengths : length X = length y.
Proof. apply HD. Qed.

Lemma data_row r t : In (r, t) (combine X y) -> length r = n /\ (t = 0 \/ t = 1).
Proof.
  intros H. destruct HD as (_ & _ & HX & HY). rewrite Forall_forall in HX, HY. split.
  - apply HX. eapply in_combine_l; eauto.
  - apply HY. eapply in_combine_r; eauto.
Qed.

Lemma n_columns_data : n_columns X = n.
Proof.
  destruct HD as (H & _ & HX & _). unfold n_columns. destruct X as [|r X']; [congruence|]. inversion HX; auto.
Qed.

Lemma positives_row r : In r (positives X y) -> length r = n.
Proof.
  unfold positives. intros H. apply in_map_iff in H. destruct H as ([r' t] & <- & H).
  apply filter_In in H. destruct H as [H _]. apply data_row in H. apply H.
Qed.

Lemma n_positive_data : length (filter (fun t => 0 <? t) y) = length (positives X y).
Proof.
  unfold positives. rewrite map_length. pose proof data_lengths as HL. destruct HD as (_ & _ & _ & HY).
  clear HD. revert X HL. induction HY as [|t l Ht HF IH]; intros [|r X'] HL; simpl in *; try discriminate; auto.
  destruct Ht as [-> | ->]; simpl; auto.
Qed.

Lemma objective_coeff_ok k : clause_over n k ->
  get_objective_coeff_mp X y k = Ok (false_positives X y k).
Proof.
  intros Hk. unfold get_objective_coeff_mp.
  rewrite (for_each_rows X y (fun entry target num => if target =? 1 then Ok num else let* s := satisfies_clause entry k in Ok (num + s)))
    by apply data_lengths.
  unfold false_positives, negatives.
  assert (G : forall l a, (forall r t, In (r, t) l -> length r = n /\ (t = 0 \/ t = 1)) ->
     for_each l (fun et num => if snd et =? 1 then Ok num else let* s := satisfies_clause (fst et) k in Ok (num + s)) a
     = Ok (a + length (filter (fun r => accepts r k) (map fst (filter (fun s => snd s =? 0) l))))).
  { induction l as [|[r t] l IH]; intros a Hl; simpl; [f_equal; lia|].
    destruct (Hl r t) as [Hr Ht]; [left; auto|].
    assert (Hl' : forall r t, In (r, t) l -> length r = n /\ (t = 0 \/ t = 1)) by (intros; apply Hl; right; auto).
    destruct Ht as [-> | ->]; simpl.
    - rewrite (satisfies_clause_ok n) by auto. simpl. rewrite IH by auto.
      destruct (accepts r k); simpl; f_equal; lia.
    - apply IH; auto. }
  rewrite G by apply data_row. f_equal.
Qed.

Lemma clause_coeffs_ok k : clause_over n k ->
  get_clause_coeffs X y k = Ok (map (fun r => if accepts r k then 1 else 0) (positives X y) ++ [complexity k]).
Proof.
  intros Hk. unfold get_clause_coeffs.
  rewrite (for_each_rows X y (fun entry target coeffs => if target =? 0 then Ok coeffs else let* s := satisfies_clause entry k in Ok (coeffs ++ [s])))
    by apply data_lengths.
  unfold positives.
  assert (G : forall l a, (forall r t, In (r, t) l -> length r = n /\ (t = 0 \/ t = 1)) ->
     for_each l (fun et coeffs => if snd et =? 0 then Ok coeffs else let* s := satisfies_clause (fst et) k in Ok (coeffs ++ [s])) a
     = Ok (a ++ map (fun r => if accepts r k then 1 else 0) (map fst (filter (fun s => snd s =? 1) l)))).
  { induction l as [|[r t] l IH]; intros a Hl; simpl; [rewrite app_nil_r; auto|].
    destruct (Hl r t) as [Hr Ht]; [left; auto|].
    assert (Hl' : forall r t, In (r, t) l -> length r = n /\ (t = 0 \/ t = 1)) by (intros; apply Hl; right; auto).
    destruct Ht as [-> | ->]; simpl.
    - apply IH; auto.
    - rewrite (satisfies_clause_ok n) by auto. simpl. rewrite IH by auto. rewrite <- app_assoc. reflexivity. }
  rewrite G by apply data_row. simpl. unfold complexity. rewrite Nat.add_1_r. reflexivity.
Qed.

(** * Building the model *)

Notation np := (length (positives X y)).
Definition xi_var := mkVar (Some 0%Q) None true.

Lemma repeat_snoc {A} (a : A) k : repeat a k ++ [a] = repeat a (S k).
Proof. replace (S k) with (k + 1) by lia. rewrite repeat_app. reflexivity. Qed.

Lemma make_xi_spec p k : exists m, make_xi p k empty_lp = (m, seq 0 k)
  /\ lp_vars m = repeat xi_var k /\ (forall j, lp_obj m j = if j <? k then p else 0%Q)
  /\ lp_off m = 0%Q /\ lp_max m = false /\ lp_cons m = [].
Proof.
  induction k as [|k IH].
  - exists empty_lp. unfold make_xi. simpl. repeat split; auto.
  - destruct IH as (m & E & HV & HO & Hf & Hm & HC). unfold make_xi in *. rewrite seq_S, fold_left_app, E. simpl.
    rewrite HV, repeat_length. eexists. split; [reflexivity|]. simpl. repeat split; auto.
    + apply repeat_snoc.
    + intros j. unfold upd. rewrite HO. destruct (Nat.eqb_spec j k) as [->|Hj].
      * replace (k <? S k) with true by (symmetry; apply Nat.ltb_lt; lia). auto.
      * destruct (Nat.ltb_spec j k), (Nat.ltb_spec j (S k)); auto; lia.
Qed.

Lemma getitem_seq i k j : j < k -> getitem (seq i k) j = Ok (i + j).
Proof. intros H. unfold getitem. rewrite seq_nth_error by auto. auto. Qed.

Lemma for_each_snoc {A S} (l : list A) x (f : A -> S -> res S) s :
  for_each (l ++ [x]) f s = let* s1 := for_each l f s in f x s1.
Proof.
  revert s; induction l as [|a l IH]; intros s; simpl; [destruct (f x s); auto|].
  destruct (f a s); simpl; auto.
Qed.

Definition sat_con (i : nat) : lpcon := mkCon (Some 1%Q) None (upd (fun _ => 0%Q) i 1%Q).

Lemma make_satisfaction_spec k N m c0 : lp_cons m = [c0] -> k <= N ->
  make_satisfaction (seq 0 N) k m
  = Ok (mkLp (lp_vars m) (lp_obj m) (lp_off m) (lp_max m) (c0 :: map sat_con (seq 0 k)), seq 1 k).
Proof.
  intros Hc. induction k as [|k IH]; intros Hk.
  - unfold make_satisfaction. simpl. destruct m. simpl in *. rewrite Hc. auto.
  - unfold make_satisfaction in *. rewrite seq_S, for_each_snoc, IH by lia. cbn [bind].
    cbn [new_con lp_cons lp_vars lp_obj lp_off lp_max]. rewrite getitem_seq by lia. cbn [bind].
    unfold set_coef. cbn [lp_cons lp_vars lp_obj lp_off lp_max]. f_equal. f_equal.
    + f_equal. cbn [length]. rewrite map_length, seq_length.
      assert (E : map_nth (fun k0 => mkCon (c_lb k0) (c_ub k0) (upd (c_coef k0) (0 + k) 1%Q))
         ((c0 :: map sat_con (seq 0 k)) ++ [mkCon (Some 1%Q) None (fun _ => 0%Q)]) (S k)
         = (c0 :: map sat_con (seq 0 k)) ++ [sat_con k]).
      { replace (S k) with (length (c0 :: map sat_con (seq 0 k)) + 0) by (simpl; rewrite map_length, seq_length; lia).
        rewrite map_nth_app_r. reflexivity. }
      etransitivity; [exact E|]. rewrite <- app_comm_cons. f_equal. rewrite map_app. reflexivity.
    + cbn [length]. rewrite map_length, seq_length. symmetry. apply (seq_S k 1).
Qed.

Definition put (v : nat) (q : Q) (k : lpcon) : lpcon := mkCon (c_lb k) (c_ub k) (upd (c_coef k) v q).

(** [cs] are the satisfaction indices 1..np, [a] their coefficients, [b] the complexity. *)
Lemma set_clause_coeffs_spec a b v m : length (lp_cons m) = S (length a) ->
  exists m', set_clause_coeffs (a ++ [b]) (seq 1 (length a)) 0 (length a) v m = Ok m'
  /\ lp_vars m' = lp_vars m /\ lp_obj m' = lp_obj m /\ lp_off m' = lp_off m /\ lp_max m' = lp_max m
  /\ length (lp_cons m') = length (lp_cons m)
  /\ forall c k, nth_error (lp_cons m) c = Some k ->
       nth_error (lp_cons m') c = Some (put v (qn (match c with O => b | S i => nth i a 0 end)) k).
Proof.
  intros HL. unfold set_clause_coeffs.
  assert (G : forall i, i <= length a ->
    exists m', for_each (seq 0 i)
      (fun j m => let* c := getitem (seq 1 (length a)) j in let* q := getitem (a ++ [b]) j in Ok (set_coef c v (qn q) m)) m = Ok m'
    /\ lp_vars m' = lp_vars m /\ lp_obj m' = lp_obj m /\ lp_off m' = lp_off m /\ lp_max m' = lp_max m
    /\ length (lp_cons m') = length (lp_cons m)
    /\ forall c k, nth_error (lp_cons m) c = Some k ->
       nth_error (lp_cons m') c = Some (match c with O => k | S j => if j <? i then put v (qn (nth j a 0)) k else k end)).
  { induction i as [|i IH]; intros Hi.
    - exists m. simpl. repeat split; auto. intros [|c] k Hk; auto.
    - destruct (IH ltac:(lia)) as (m' & E & H1 & H2 & H3 & H4 & H5 & H6). clear IH.
      rewrite seq_S, for_each_snoc, E. cbn [bind]. rewrite getitem_seq by lia. cbn [bind].
      assert (EG : getitem (a ++ [b]) (0 + i) = Ok (nth i a 0)).
      { unfold getitem. cbn. rewrite nth_error_app1 by lia. rewrite (nth_error_nth' a 0) by lia. auto. }
      rewrite EG. cbn [bind]. eexists. split; [reflexivity|]. cbn [set_coef lp_vars lp_obj lp_off lp_max lp_cons].
      rewrite map_nth_length. repeat split; auto.
      intros c k Hk. rewrite map_nth_nth_error, (H6 _ _ Hk). destruct c as [|c]; cbn [Nat.add Nat.eqb]; auto.
      destruct (Nat.eqb_spec c i) as [->|Hc].
      + rewrite Nat.ltb_irrefl. replace (i <? S i) with true by (symmetry; apply Nat.ltb_lt; lia). reflexivity.
      + destruct (Nat.ltb_spec c i), (Nat.ltb_spec c (S i)); auto; lia. }
  destruct (G (length a) ltac:(lia)) as (m' & E & H1 & H2 & H3 & H4 & H5 & H6). rewrite E. cbn [bind].
  assert (EG : getitem (a ++ [b]) (length (a ++ [b]) - 1) = Ok b).
  { rewrite app_length. simpl. replace (length a + 1 - 1) with (length a + 0) by lia. rewrite getitem_app_r. reflexivity. }
  rewrite EG. cbn [bind]. eexists. split; [reflexivity|]. cbn [set_coef lp_vars lp_obj lp_off lp_max lp_cons].
  rewrite map_nth_length. repeat split; auto.
  intros c k Hk. rewrite map_nth_nth_error, (H6 _ _ Hk). destruct c as [|c]; cbn [Nat.eqb]; auto.
  assert (Hc : c < length a).
  { assert (nth_error (lp_cons m) (S c) <> None) by congruence. apply nth_error_Some in H. lia. }
  apply Nat.ltb_lt in Hc. rewrite Hc. reflexivity.
Qed.

(** The state of a master problem with clauses [K]. *)
Record master_inv (C : Z) (p : Q) (K : list clause) (s : master) : Prop := {
  mi_gen : bm_generated s = true;
  mi_C : bm_C s = C;
  mi_p : bm_p s = p;
  mi_X : bm_X s = X;
  mi_y : bm_y s = y;
  mi_xi : bm_xi_vars s = seq 0 np;
  mi_vars : bm_clause_vars s = seq np (length K);
  mi_cs : bm_satisfaction s = seq 1 np;
  mi_cc : bm_complexity s = 0;
  mi_dict : bm_dict s = combine (seq np (length K)) K;
  mi_lp : same_lp (bm_lp s) (problem1 X y C p K)
}.

Lemma nth_error_combine_seq {A} (l : list A) s i : nth_error (combine (seq s (length l)) l) i
  = option_map (fun a => (s + i, a)) (nth_error l i).
Proof.
  revert s i; induction l as [|a l IH]; intros s [|i]; simpl; auto.
  - rewrite Nat.add_0_r. auto.
  - rewrite IH. destruct (nth_error l i); simpl; auto. f_equal. f_equal. lia.
Qed.

Lemma problem1_cons C p K c : nth_error (lp_cons (problem1 X y C p K)) c =
  match c with
  | O => Some (mkCon None (Some (inject_Z C)) (fun j => if j <? np then 0%Q else
                 match nth_error K (j - np) with Some k => qn (complexity k) | None => 0%Q end))
  | S i => option_map (fun r => mkCon (Some 1%Q) None (fun j => if j <? np then (if j =? i then 1%Q else 0%Q)
             else match nth_error K (j - np) with Some k => qn (if accepts r k then 1 else 0) | None => 0%Q end))
             (nth_error (positives X y) i)
  end.
Proof.
  unfold problem1. cbn [lp_cons]. destruct c as [|i]; [reflexivity|]. cbn [nth_error].
  rewrite nth_error_map, nth_error_combine_seq. destruct (nth_error (positives X y) i) as [r|]; reflexivity.
Qed.

Lemma problem1_num_cons C p K : num_cons (problem1 X y C p K) = S np.
Proof. unfold num_cons, problem1. cbn [lp_cons length]. rewrite map_length, combine_length, seq_length. lia. Qed.

Lemma problem1_num_vars C p K : num_vars (problem1 X y C p K) = np + length K.
Proof. unfold num_vars, problem1. cbn [lp_vars]. apply repeat_length. Qed.

Lemma nth_coeffs k i r : nth_error (positives X y) i = Some r ->
  nth i (map (fun r => if accepts r k then 1 else 0) (positives X y)) 0 = if accepts r k then 1 else 0.
Proof. intros H. apply nth_error_nth. rewrite nth_error_map, H. reflexivity. Qed.

Lemma nth_error_snoc {A} (l : list A) a i : nth_error (l ++ [a]) i = if i =? length l then Some a else nth_error l i.
Proof.
  destruct (Nat.eqb_spec i (length l)) as [->|H].
  - rewrite nth_error_app2, Nat.sub_diag by lia. auto.
  - destruct (Nat.ltb_spec i (length l)).
    + rewrite nth_error_app1 by auto. auto.
    + rewrite nth_error_app2 by lia. rewrite (proj2 (nth_error_None l i)) by lia.
      apply nth_error_None. simpl. lia.
Qed.

(** Adding a variable with the coefficients of clause [k] to problem (1) on [K] gives problem (1) on [K ++ [k]]. *)
Lemma add_clause_same C p K k m m' :
  lp_vars m = lp_vars (problem1 X y C p K) ++ [xi_var] ->
  (forall j, lp_obj m j == if (j =? np + length K)%nat then qn (false_positives X y k) else lp_obj (problem1 X y C p K) j)%Q ->
  (lp_off m == 0)%Q -> lp_max m = false ->
  lp_vars m' = lp_vars m -> lp_obj m' = lp_obj m -> lp_off m' = lp_off m -> lp_max m' = lp_max m ->
  length (lp_cons m') = length (lp_cons m) ->
  Forall2 same_con (lp_cons m) (lp_cons (problem1 X y C p K)) ->
  (forall c k0, nth_error (lp_cons m) c = Some k0 ->
       nth_error (lp_cons m') c = Some (put (np + length K)
          (qn (match c with O => complexity k | S i => nth i (map (fun r => if accepts r k then 1 else 0) (positives X y)) 0 end)) k0)) ->
  same_lp m' (problem1 X y C p (K ++ [k])).
Proof.
  intros HV HO Hoff Hmax E1 E2 E3 E4 E5 HS HC.
  split; [|split; [|split; [|split]]].
  - rewrite E1, HV. unfold problem1. cbn [lp_vars]. rewrite repeat_snoc, app_length. cbn [length]. f_equal. lia.
  - intros j. rewrite E2, HO. unfold problem1. cbn [lp_obj]. rewrite nth_error_snoc.
    destruct (Nat.eqb_spec j (np + length K)) as [->|Hj].
    + destruct (Nat.ltb_spec (np + length K) np); [lia|].
      replace (np + length K - np =? length K) with true by (symmetry; apply Nat.eqb_eq; lia). reflexivity.
    + destruct (Nat.ltb_spec j np); [reflexivity|].
      replace (j - np =? length K) with false by (symmetry; apply Nat.eqb_neq; lia). reflexivity.
  - rewrite E3, Hoff. reflexivity.
  - rewrite E4, Hmax. reflexivity.
  - apply Forall2_intro_nth.
    + rewrite E5. transitivity (num_cons (problem1 X y C p K)).
      * unfold num_cons. clear - HS. induction HS; simpl; auto.
      * rewrite problem1_num_cons. symmetry. apply (problem1_num_cons C p (K ++ [k])).
    + intros c k1 k2 H1 H2.
      assert (Hc : exists k0, nth_error (lp_cons m) c = Some k0).
      { apply nth_error_some_lt. assert (HN : nth_error (lp_cons m') c <> None) by congruence. apply nth_error_Some in HN. lia. }
      destruct Hc as (k0 & Hk0). specialize (HC _ _ Hk0). rewrite H1 in HC. inversion HC; subst k1; clear HC.
      destruct (Forall2_nth_error _ _ _ _ _ HS Hk0) as (k3 & Hk3 & S1 & S2 & S3).
      rewrite problem1_cons in H2, Hk3. destruct c as [|i].
      * inversion H2; inversion Hk3; subst; clear H2 Hk3. cbn [c_lb c_ub c_coef put] in S1, S2, S3 |- *. repeat split; auto.
        intros j. unfold put. cbn [c_lb c_ub c_coef]. unfold upd. rewrite nth_error_snoc. destruct (Nat.eqb_spec j (np + length K)) as [->|Hj].
        -- destruct (Nat.ltb_spec (np + length K) np); [lia|].
           replace (np + length K - np =? length K) with true by (symmetry; apply Nat.eqb_eq; lia). reflexivity.
        -- rewrite S3. destruct (Nat.ltb_spec j np); [reflexivity|].
           replace (j - np =? length K) with false by (symmetry; apply Nat.eqb_neq; lia). reflexivity.
      * destruct (nth_error (positives X y) i) as [r|] eqn:Er; [|discriminate].
        rewrite (nth_coeffs k i r Er).
        inversion H2; inversion Hk3; subst; clear H2 Hk3. cbn [c_lb c_ub c_coef put] in S1, S2, S3 |- *. repeat split; auto.
        intros j. unfold put. cbn [c_lb c_ub c_coef]. unfold upd. rewrite nth_error_snoc. destruct (Nat.eqb_spec j (np + length K)) as [->|Hj].
        -- destruct (Nat.ltb_spec (np + length K) np); [lia|].
           replace (np + length K - np =? length K) with true by (symmetry; apply Nat.eqb_eq; lia). reflexivity.
        -- rewrite S3. destruct (Nat.ltb_spec j np); [reflexivity|].
           replace (j - np =? length K) with false by (symmetry; apply Nat.eqb_neq; lia). reflexivity.
Qed.

Lemma generate_mp_ok C p : exists s, generate_mp X y (master_init C p) = Ok s /\ master_inv C p [[]] s
  /\ bm_explanation s = None.
Proof.
  unfold generate_mp. cbn [bm_generated master_init bm_p bm_lp bm_C bm_explanation]. rewrite n_positive_data.
  destruct (make_xi_spec p np) as (m1 & -> & HV & HO & Hf & Hm & HC).
  assert (HE : clause_over n []) by constructor.
  unfold make_clauses. cbn [seq for_each]. change (generate_lexicographic_clause (N.of_nat 0)) with (@nil nat).
  rewrite objective_coeff_ok by auto. cbn [new_var bind].
  cbn [app dict_set set_obj set_dir new_con lp_vars lp_obj lp_off lp_max lp_cons]. rewrite HV, repeat_length.
  rewrite (make_satisfaction_spec np np _ (mkCon None (Some (inject_Z C)) (fun _ => 0%Q))); [|cbn; rewrite HC; auto|lia].
  cbn [bind]. unfold getitem at 1. cbn [nth_error bind dict_get]. rewrite Nat.eqb_refl. cbn [bind].
  rewrite clause_coeffs_ok by auto. cbn [bind].
  set (a := map (fun r => if accepts r [] then 1 else 0) (positives X y)).
  set (mm := mkLp _ _ _ _ _).
  assert (La : length a = np) by (unfold a; apply map_length).
  destruct (set_clause_coeffs_spec a (complexity []) np mm) as (m' & E & E1 & E2 & E3 & E4 & E5 & E6).
  { unfold mm. cbn. rewrite map_length, seq_length, La. auto. }
  rewrite La in E. rewrite HC. cbn [length]. rewrite E. cbn [bind]. eexists. split; [reflexivity|]. split; [|reflexivity].
  constructor; cbn [bm_generated bm_C bm_p bm_X bm_y bm_xi_vars bm_clause_vars bm_satisfaction bm_complexity bm_dict bm_lp]; auto.
  - apply (add_clause_same C p [] [] mm); auto.
    + unfold mm. cbn. rewrite Nat.add_0_r. reflexivity.
    + intros j. unfold mm. cbn. unfold upd. rewrite Nat.add_0_r, HO. destruct (j =? np); [reflexivity|].
      destruct (j <? np); [reflexivity|]. destruct (j - np); reflexivity.
    + unfold mm. cbn. rewrite Hf. reflexivity.
    + unfold mm. cbn. apply Forall2_intro_nth.
      * cbn. rewrite !map_length, combine_length, !seq_length. lia.
      * intros c k1 k2 H1 H2. change (nth_error (lp_cons (problem1 X y C p [])) c = Some k2) in H2. rewrite problem1_cons in H2.
        destruct c as [|i]; cbn in H1.
        -- inversion H1; inversion H2; subst. repeat split; auto. intros j. cbn. destruct (j <? np), (j - np); reflexivity.
        -- rewrite nth_error_map in H1. destruct (nth_error (positives X y) i) as [r|] eqn:Er; [|discriminate].
           assert (Hi : i < np) by (assert (HN : nth_error (positives X y) i <> None) by congruence; apply nth_error_Some in HN; auto).
           rewrite seq_nth_error in H1 by auto. cbn in H1, H2. inversion H1; inversion H2; subst.
           repeat split; auto. intros j. cbn. unfold upd. destruct (Nat.eqb_spec j i) as [->|Hj].
           ++ apply Nat.ltb_lt in Hi. rewrite Hi. reflexivity.
           ++ destruct (j <? np), (j - np); reflexivity.
    + intros c k0 Hk0. cbn [length]. rewrite Nat.add_0_r. apply E6; auto.
Qed.

Lemma dict_set_fresh {A} (d : list (nat * A)) k a : ~ In k (map fst d) -> dict_set d k a = d ++ [(k, a)].
Proof.
  induction d as [|[k' a'] d IH]; simpl; intros H; auto. destruct (Nat.eqb_spec k' k); [tauto|]. rewrite IH by tauto. auto.
Qed.

Lemma map_fst_combine_seq {A} (l : list A) s : map fst (combine (seq s (length l)) l) = seq s (length l).
Proof. revert s; induction l as [|a l IH]; intros s; simpl; auto. rewrite IH. auto. Qed.

Lemma map_snd_combine_seq {A} (l : list A) s : map snd (combine (seq s (length l)) l) = l.
Proof. revert s; induction l as [|a l IH]; intros s; simpl; auto. rewrite IH. auto. Qed.

Lemma combine_snoc {A} (l : list A) a s :
  combine (seq s (length (l ++ [a]))) (l ++ [a]) = combine (seq s (length l)) l ++ [(s + length l, a)].
Proof.
  revert s; induction l as [|b l IH]; intros s; simpl; [rewrite Nat.add_0_r; auto|].
  rewrite IH. f_equal. f_equal. f_equal. f_equal. lia.
Qed.

Lemma in_dict_clause s K k C p : master_inv C p K s ->
  existsb (fun kc => clause_eqb (snd kc) k) (bm_dict s) = true <-> In k K.
Proof.
  intros I. rewrite (mi_dict _ _ _ _ I). rewrite existsb_exists. split.
  - intros ([v c] & H & E). apply clause_eqb_eq in E. cbn in E. subst. eapply in_combine_r; eauto.
  - intros H. rewrite <- (map_snd_combine_seq K np) in H. apply in_map_iff in H. destruct H as (vc & <- & H).
    exists vc. split; auto. apply clause_eqb_eq. auto.
Qed.

Lemma add_column_ok C p K k s : master_inv C p K s -> clause_over n k -> k <> [] -> ~ In k K ->
  exists s', add_column k s = (s', Ok true) /\ master_inv C p (K ++ [k]) s' /\ bm_explanation s' = bm_explanation s
    /\ num_vars (bm_lp s') = S (num_vars (bm_lp s)) /\ num_cons (bm_lp s') = num_cons (bm_lp s).
Proof.
  intros I Hk Hne Hnew. unfold add_column. rewrite (mi_gen _ _ _ _ I). cbn [negb].
  destruct k as [|j k0]; [congruence|]. cbn [length Nat.eqb]. set (k := j :: k0) in *.
  destruct (existsb _ _) eqn:Ex; [apply (in_dict_clause s K k C p I) in Ex; contradiction|]. clear Ex.
  pose proof (mi_lp _ _ _ _ I) as SL. pose proof (same_num_vars _ _ SL) as NV. pose proof (same_num_cons _ _ SL) as NC.
  rewrite problem1_num_vars in NV. rewrite problem1_num_cons in NC.
  cbn [new_var]. fold (num_vars (bm_lp s)). rewrite NV, NC.
  rewrite (mi_X _ _ _ _ I), (mi_y _ _ _ _ I), objective_coeff_ok, clause_coeffs_ok by auto.
  rewrite (mi_cs _ _ _ _ I), (mi_cc _ _ _ _ I), seq_length. replace (S np - 1) with np by lia. rewrite Nat.eqb_refl. cbn [negb].
  set (a := map (fun r => if accepts r k then 1 else 0) (positives X y)).
  assert (La : length a = np) by (unfold a; apply map_length).
  set (mm := set_obj _ _ _).
  destruct (set_clause_coeffs_spec a (complexity k) (np + length K) mm) as (m' & E & E1 & E2 & E3 & E4 & E5 & E6).
  { unfold mm. cbn. unfold num_cons in NC. lia. }
  rewrite La in E. rewrite E. eexists. split; [reflexivity|].
  destruct SL as (S1 & S2 & S3 & S4 & S5).
  split; [|split; [reflexivity|split]].
  - constructor; cbn; try apply I; auto.
    + rewrite (mi_vars _ _ _ _ I), app_length. simpl. rewrite Nat.add_1_r, seq_S. auto.
    + rewrite (mi_dict _ _ _ _ I), dict_set_fresh.
      * rewrite combine_snoc. auto.
      * rewrite map_fst_combine_seq. rewrite in_seq. lia.
    + apply (add_clause_same C p K k mm); auto.
      * unfold mm. cbn. rewrite S1. reflexivity.
      * intros j'. unfold mm. cbn. unfold upd. destruct (_ =? _); [reflexivity|]. apply S2.
  - unfold num_vars in *. cbn. rewrite E1. unfold mm. cbn. rewrite app_length. simpl. lia.
  - unfold num_cons in *. cbn. rewrite E5. exact NC.
Qed.

Lemma add_column_rejected C p K k s : master_inv C p K s -> In k K -> 
  add_column k s = (s, match k with [] => Ok false | _ => Err AssertionError end).
Proof.
  intros I H. unfold add_column. rewrite (mi_gen _ _ _ _ I). cbn [negb]. destruct k as [|j k]; auto. cbn [length Nat.eqb].
  apply (in_dict_clause s K (j :: k) C p I) in H. rewrite H. auto.
Qed.

Lemma kept_empty K k : In [] K -> In [] (kept K k).
Proof.
  unfold kept. destruct (in_dec clause_dec k K); auto. destruct k; auto. intros; apply in_or_app; auto.
Qed.

Lemma add_column_kept C p K k s : master_inv C p K s -> In [] K -> clause_over n k ->
  master_inv C p (kept K k) (fst (add_column k s))
  /\ bm_explanation (fst (add_column k s)) = bm_explanation s.
Proof.
  intros I HE Hk. unfold kept. destruct (in_dec clause_dec k K) as [H|H].
  - rewrite (add_column_rejected C p K k s I H). auto.
  - destruct k as [|j k]; [contradiction|].
    destruct (add_column_ok C p K (j :: k) s I Hk ltac:(discriminate) H) as (s' & E & I' & HX & _). rewrite E. auto.
Qed.

Lemma fold_master_inv C p h : Forall (clause_over n) h -> forall K s, In [] K -> master_inv C p K s ->
  master_inv C p (fold_left kept h K) (fold_left (fun s k => fst (add_column k s)) h s).
Proof.
  induction 1 as [|k h Hk Hh IH]; intros K s HE I; simpl; auto.
  apply IH; [apply kept_empty; auto|]. apply add_column_kept; auto.
Qed.
End Data.

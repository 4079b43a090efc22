(** Solvers that satisfy the assumptions of the theorems about training runs exist for every setup. *)
From Verif Require Import Base Lp LpProofs LpCheck LpBrute SolveModel SolveObs TreeModel TreePricingModel TreeFitModel SpecTree SpecTreeRun SpecTreeLp
  SpecTreePrice SpecTreeMip SpecTreeFit SpecTreeTrain TreeGeoProofs TreePathProofs TreeLpBuild TreeBuildProofs TreeInvProofs TreeMasterProofs TreeFormProofs TreeSolProofs PropTreeLp.
Open Scope nat_scope.

(** ** Exact pricing *)
Lemma bits_of m x : (forall j, j < num_vars m -> (x j == 0)%Q \/ (x j == 1)%Q) ->
  exists bs, In bs (all_bits (num_vars m)) /\ forall j, j < num_vars m -> (x j == bit_point bs j)%Q.
Proof.
  intros H. exists (map (fun j => Qltb (1 # 2) (x j)) (seq 0 (num_vars m))). split.
  - set (bs := map _ _). replace (num_vars m) with (length bs) by (unfold bs; rewrite map_length, seq_length; reflexivity). apply all_bits_In.
  - intros j Hj. unfold bit_point. assert (E1 : nth j (map (fun j => Qltb (1 # 2) (x j)) (seq 0 (num_vars m))) false = Qltb (1 # 2) (x j)).
    { apply nth_error_nth. rewrite nth_error_map, seq_nth_error by auto. reflexivity. }
    rewrite E1. clear E1.
    destruct (H j Hj) as [E|E]; destruct (Qltb (1 # 2) (x j)) eqn:El; try (apply Qltb_true in El); try (apply Qltb_false in El); lra.
Qed.
Lemma brute_complete m : zero_one_model m -> (exists x, ip_feasible m x) -> exists x, brute m = Some x /\ ip_optimal m x.
Proof.
  intros [Hm Hv] [x [Hf Hi]]. assert (Hb : forallb binary (lp_vars m) = true) by (apply forallb_forall; intros v Hin; rewrite (Hv v Hin); reflexivity).
  destruct (bits_of m x) as (bs & Hin & Hs).
  { intros j Hj. destruct (nth_error_some_lt (lp_vars m) j Hj) as [v Ev]. apply (binary_value v).
    - rewrite (Hv v (nth_error_In _ _ Ev)). reflexivity.
    - apply (proj1 Hf). auto.
    - apply Hi. auto. }
  destruct (fold_better m (all_bits (num_vars m)) None) as [_ F2]; [discriminate|].
  destruct (F2 bs (or_introl Hin)) as (b & Eb & _); [eapply feasible_same; eauto|].
  assert (E : brute m = Some (bit_point b)) by (unfold brute; rewrite Hb, Hm; cbn [andb]; rewrite Eb; reflexivity).
  exists (bit_point b). split; auto. apply brute_optimal. exact E.
Qed.

(** ** Integer solutions of the master problem, by enumeration *)
Definition search (m : lp) : option (nat -> Q) := option_map bit_point (find (fun bs => feasibleb m (bit_point bs)) (all_bits (num_vars m))).
Lemma search_ok m x : lp_feasible m x -> (forall j, j < num_vars m -> (x j == 0)%Q \/ (x j == 1)%Q) -> exists x', search m = Some x' /\ ip_feasible m x'.
Proof.
  intros Hf H. destruct (bits_of m x H) as (bs & Hin & Hs). unfold search.
  destruct (find _ _) as [b|] eqn:E.
  - exists (bit_point b). split; [reflexivity|]. apply find_some in E. destruct E as [_ E]. split; [apply feasibleb_iff; exact E|].
    intros j v _ _. unfold bit_point. destruct (nth j b false); [exists 1%Z|exists 0%Z]; reflexivity.
  - exfalso. apply (find_none _ _ E) in Hin. rewrite (proj2 (feasibleb_iff m (bit_point bs))) in Hin; [discriminate|]. eapply feasible_same; eauto.
Qed.

(** ** Duals without attractive variables *)
Definition big (m : lp) : Q := qsum (fun j => Qabs.Qabs (lp_obj m j)) (seq 0 (num_vars m)).
Definition unit_con (k : lpcon) : bool :=
  match c_lb k, c_ub k with Some a, Some b => Qeq_bool a 1 && Qeq_bool b 1 | _, _ => false end.
Definition big_duals (m : lp) (i : nat) : Q :=
  match nth_error (lp_cons m) i with Some k => if unit_con k then big m else 0%Q | None => 0%Q end.
Lemma qsum_ge {B} (f : B -> Q) l a : (forall b, In b l -> (0 <= f b)%Q) -> In a l -> (f a <= qsum f l)%Q.
Proof.
  induction l as [|b l IH]; intros H Hin; [destruct Hin|]. rewrite qsum_cons. destruct Hin as [->|Hin].
  - assert (0 <= qsum f l)%Q by (apply qsum_nonneg; intros; apply H; right; auto). lra.
  - assert (0 <= f b)%Q by (apply H; left; auto). assert (f a <= qsum f l)%Q by (apply IH; auto; intros; apply H; right; auto). lra.
Qed.
Lemma big_ge m j : j < num_vars m -> (lp_obj m j <= big m)%Q.
Proof.
  intros Hj. eapply Qle_trans; [apply Qabs.Qle_Qabs|]. apply (qsum_ge (fun j => Qabs.Qabs (lp_obj m j))); [intros; apply Qabs.Qabs_nonneg|apply in_seq; lia].
Qed.
Lemma big_nonneg m : (0 <= big m)%Q.
Proof. apply qsum_nonneg. intros. apply Qabs.Qabs_nonneg. Qed.
Lemma big_duals_nonneg m i : (0 <= big_duals m i)%Q.
Proof. unfold big_duals. pose proof (big_nonneg m). destruct (nth_error _ _); [destruct (unit_con _)|]; lra. Qed.

Section Master.
Variables (u : setup) (paths : list path) (rws : list nat) (cuts : list (list bool)) (kinds : list ckind) (cv : nat -> nat -> nat) (m : lp).
Hypothesis F : formulation (su_X u) (su_leaves u) (su_nodes u) (su_splits u) paths rws cuts kinds cv m.
Hypothesis Hpl : forall p, In p paths -> p_leaf p < 2 ^ su_depth u.
Lemma leaves_len : length (su_leaves u) = 2 ^ su_depth u.
Proof. unfold su_leaves, complete_leaves. rewrite map_length, seq_length. reflexivity. Qed.
Lemma kind_con i c : nth_error kinds i = Some c -> exists k, nth_error (lp_cons m) i = Some k /\ (c_lb k, c_ub k) = kind_bounds c.
Proof. intros H. destruct (Forall2_nth_error _ _ _ _ _ (fm_cons _ _ _ _ _ _ _ _ _ _ F) H) as (k & Hk & Hb & _). eauto. Qed.
Lemma big_red j : j < num_vars m -> (reduced_cost m (big_duals m) j <= 0)%Q.
Proof.
  intros Hj. destruct (fm_all_vars _ _ _ _ _ _ _ _ _ _ F j Hj) as [(p & Hp & ->)|(l & n & k & Hk & ->)].
  - rewrite (reduced_path u _ _ _ _ _ _ F (big_duals m) p Hp), <- (fm_cost _ _ _ _ _ _ _ _ _ _ F p Hp). pose proof (big_ge m _ Hj).
    assert (Hl : In (KLeaf (p_leaf p)) kinds) by (apply (fm_leaves _ _ _ _ _ _ _ _ _ _ F); rewrite leaves_len; auto).
    apply In_nth_error in Hl. destruct Hl as [i Hi]. destruct (kind_con i _ Hi) as (c & Hc & Hb). cbn [kind_bounds] in Hb. injection Hb as H1 H2.
    assert (Ed : big_duals m i = big m) by (unfold big_duals; rewrite Hc; unfold unit_con; rewrite H1, H2; reflexivity).
    set (f := fun ck : nat * ckind => _). assert (Hge : (f (i, KLeaf (p_leaf p)) <= qsum f (combine (seq 0 (length kinds)) kinds))%Q).
    { apply qsum_ge.
      - intros [a b] _. unfold f. cbn [fst snd]. pose proof (big_duals_nonneg m a). destruct (covb _ _ _ _ _); lra.
      - assert (Hlt : i < length kinds) by (apply nth_error_Some; congruence). apply (nth_error_In _ i). clear - Hi Hlt.
        assert (G : forall l s, i < length l -> nth_error l i = Some (KLeaf (p_leaf p)) -> nth_error (combine (seq s (length l)) l) i = Some (s + i, KLeaf (p_leaf p))).
        { clear Hi Hlt. induction i as [|i IH]; intros [|a l] s H1 H2; cbn in *; try lia; [injection H2 as ->; f_equal; f_equal; lia|].
          rewrite IH by (auto; lia). f_equal. f_equal. lia. }
        apply (G kinds 0); auto. }
    unfold f at 1 in Hge. cbn [fst snd] in Hge. rewrite (proj2 (covb_iff _ _ _ (KLeaf (p_leaf p)) p) eq_refl), Ed in Hge. lra.
  - rewrite (reduced_choice u _ _ _ _ _ _ F (big_duals m) l n k Hk). rewrite qsum_zero; [lra|]. intros [i c] Hin. cbn [fst snd].
    destruct c as [l'|r|z|l' n' k']; try reflexivity. destruct (_ && _); [|reflexivity].
    assert (Hi : nth_error kinds i = Some (KChoice l' n' k')) by (apply in_indexed; exact Hin).
    destruct (kind_con i _ Hi) as (c & Hc & Hb). cbn [kind_bounds] in Hb. injection Hb as H1 H2. unfold big_duals. rewrite Hc. unfold unit_con. rewrite H1, H2. reflexivity.
Qed.
Lemma ip_zero_one x : ip_feasible m x -> forall j, j < num_vars m -> (x j == 0)%Q \/ (x j == 1)%Q.
Proof.
  intros Hx j Hj. pose proof (feasible_integral _ _ _ _ _ _ _ _ _ _ _ F Hx) as Hi. destruct (Hi j Hj) as [z Ez].
  destruct (feasible_meets _ _ _ _ _ _ _ _ _ _ _ F (proj1 Hx)) as [H0 HB].
  assert (L : forall l, l < 2 ^ su_depth u -> (qsum (fun p => if covb (su_X u) (su_leaves u) (su_splits u) (KLeaf l) p then x (p_id p) else 0) paths == 1)%Q).
  { intros l Hl. assert (Hk : In (KLeaf l) kinds) by (apply (fm_leaves _ _ _ _ _ _ _ _ _ _ F); rewrite leaves_len; auto).
    apply In_nth_error in Hk. destruct Hk as [i Hk]. destruct (kind_con i _ Hk) as (c & Hc & Hb). cbn [kind_bounds] in Hb. injection Hb as B1 B2.
    pose proof (HB i _ c Hk Hc I) as [A1 A2]. rewrite B1 in A1. rewrite B2 in A2. specialize (A1 _ eq_refl). specialize (A2 _ eq_refl).
    pose proof (form_activity _ _ _ _ _ _ _ _ _ _ F i _ c x Hk Hc) as E. cbn beta iota in E. lra. }
  assert (Hn : forall p, In p paths -> (0 <= x (p_id p))%Q) by (intros p Hp; apply H0, (fm_path_vars _ _ _ _ _ _ _ _ _ _ F); auto).
  assert (Hle : (0 <= x j <= 1)%Q).
  { split; [apply H0; auto|]. destruct (fm_all_vars _ _ _ _ _ _ _ _ _ _ F j Hj) as [(p & Hp & ->)|(l & n & k & Hk & ->)].
    - rewrite <- (L (p_leaf p)) by auto. set (f := fun q : path => _). assert (E : f p = x (p_id p)) by (unfold f; rewrite (proj2 (covb_iff _ _ _ (KLeaf (p_leaf p)) p) eq_refl); reflexivity).
      rewrite <- E. apply qsum_ge; auto. intros b Hb. unfold f. specialize (Hn b Hb). destruct (covb _ _ _ _ _); lra.
    - assert (Hl : l < 2 ^ su_depth u).
      { apply (fm_choices _ _ _ _ _ _ _ _ _ _ F) in Hk. destruct Hk as (lf & nd & H1 & _). rewrite <- leaves_len. apply nth_error_Some. congruence. }
      apply In_nth_error in Hk. destruct Hk as [i Hk]. destruct (kind_con i _ Hk) as (c & Hc & Hb). cbn [kind_bounds] in Hb. injection Hb as B1 B2.
      pose proof (HB i _ c Hk Hc I) as [A1 A2]. rewrite B1 in A1. rewrite B2 in A2. specialize (A1 _ eq_refl). specialize (A2 _ eq_refl).
      pose proof (form_activity _ _ _ _ _ _ _ _ _ _ F i _ c x Hk Hc) as E. cbn beta iota in E.
      assert (G : (qsum (fun p => if covb (su_X u) (su_leaves u) (su_splits u) (KChoice l n k) p then x (p_id p) else 0) paths <=
                   qsum (fun p => if covb (su_X u) (su_leaves u) (su_splits u) (KLeaf l) p then x (p_id p) else 0) paths)%Q).
      { apply qsum_le. intros p Hp. specialize (Hn p Hp). destruct (covb _ _ _ (KChoice l n k) p) eqn:E1.
        - apply covb_iff in E1. destruct E1 as [E1 _]. rewrite (proj2 (covb_iff _ _ _ (KLeaf l) p) E1). lra.
        - destruct (covb _ _ _ (KLeaf l) p); lra. }
      rewrite (L l Hl) in G. lra. }
  assert (Hz : (0 <= z <= 1)%Z).
  { split; rewrite Zle_Qle; [change (inject_Z 0) with 0%Q|change (inject_Z 1) with 1%Q]; lra. }
  assert (E : (z = 0 \/ z = 1)%Z) by lia. destruct E as [-> | ->]; [left|right]; exact Ez.
Qed.
End Master.

(** ** The solvers *)
(** [x, pi] where it can be used, else any point and the duals above. *)
Definition lp_by (x pi : nat -> Q) (m : lp) : option lp_answer :=
  if forallb (fun j => Qle_bool (reduced_cost m pi j) 0) (seq 0 (num_vars m)) then Some (x, pi) else Some (fun _ => 0%Q, big_duals m).
Definition sat_by (st : settings) (m : lp) : answer * list (nat -> Q) :=
  (mkAnswer OPTIMAL 1 0 0, match brute m with Some y => [y] | None => [] end).
Definition enumerating (x pi : nat -> Q) : fsolvers :=
  mkFsv (mkTsv (fun _ => lp_by x pi) (fun _ _ _ => []) (fun _ => search)) (fun _ _ => 0) (fun _ l => l) (fun _ => mkStreams (fun _ => 0) (fun _ => 0) (fun _ => 0))
    (fun _ => sat_by) (fun _ => brute).
Lemma enumerating_honest u x pi : valid_setup u -> honest u (enumerating x pi).
Proof.
  intros V. assert (P : forall ops cuts s, after u ops cuts s -> exists kinds, formulated u (rows_of kinds) cuts kinds (cv_of (tm_ns_vars s)) s /\
    forall p, In p (tm_paths s) -> p_leaf p < 2 ^ su_depth u).
  { intros ops cuts s Ha. destruct (after_inv u ops cuts s V Ha) as (kinds & H & _ & _ & _ & _ & Fp & _). exists kinds. split; [apply (after_formulated u _ _ _ V H)|].
    intros q Hq. destruct (Forall2_In_r _ _ _ _ Fp Hq) as (p & Hp & Eq). rewrite Eq. cbn. apply in_app_or in Hp. destruct Hp as [Hp|Hp].
    - pose proof V as (_ & Hpl & _). rewrite Forall_forall in Hpl. apply Hpl. auto.
    - destruct Ha as (L & _). rewrite Forall_forall in L. unfold columns in Hp. apply in_flat_map in Hp. destruct Hp as (o & Ho & Hp). specialize (L o Ho).
      destruct o; cbn in Hp; try contradiction. destruct Hp as [<-|[]]. apply L. }
  constructor.
  - intros n cm o. constructor.
  - intros i ops cuts s Ha _. destruct (P _ _ _ Ha) as (kinds & F & Hpl). cbn [tv_lp fs_tree enumerating]. unfold lp_by.
    destruct (forallb _ _) eqn:E.
    + rewrite forallb_forall in E. eexists _, _. split; [reflexivity|]. intros j Hj. assert (H0 : (reduced_cost (tm_lp s) pi j <= 0)%Q) by (apply Qle_bool_iff, E, in_seq; lia). unfold teps. lra.
    + eexists _, _. split; [reflexivity|]. intros j Hj. assert (H0 : (reduced_cost (tm_lp s) (big_duals (tm_lp s)) j <= 0)%Q) by (eapply big_red; eauto). unfold teps. lra.
  - intros i ops cuts s Ha (x0 & Hx). destruct (P _ _ _ Ha) as (kinds & F & Hpl). cbn [tv_ip fs_tree enumerating]. apply (search_ok _ x0 (proj1 Hx)). eapply ip_zero_one; eauto.
  - intros k l. apply Permutation_refl.
  - intros k st m. cbn [fs_sat enumerating]. unfold sat_by. cbn [fst snd]. split.
    + destruct (brute m) as [y|] eqn:E; [|constructor]. constructor; [apply (brute_optimal _ _ E)|constructor].
    + unfold zero_gap_failure. cbn. intuition discriminate.
  - intros k m y E. apply (brute_optimal _ _ E).
Qed.
Lemma enumerating_exact x pi : exact_pricing (enumerating x pi).
Proof.
  intros k m Hm Hf. destruct (brute_complete m Hm Hf) as (y & Ey & Hy). split; [exists y; auto|]. intros st. exists y. cbn [fs_sat enumerating]. unfold sat_by. rewrite Ey. cbn. auto.
Qed.

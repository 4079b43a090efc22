(** Lemmas about TunerModel.v. *)
From Verif Require Import Base TunerModel SpecTuner TunerObs.
From Coq Require Import Qfield.
Open Scope Q_scope.

(** ** Running statistics *)

(** Values pushed since the last clear. *)
Definition live_step (l : list Q) (o : rs_op) : list Q :=
  match o with RsPush x => l ++ [x] | RsClear => [] end.

Definition sq_dev (l : list Q) (m : Q) : Q := qsum (fun x => (x - m) * (x - m)) l.

Lemma qlen_snoc {A} (l : list A) x : qlen (l ++ [x]) == qlen l + 1.
Proof. unfold qlen. rewrite app_length. rewrite inject_nat_plus. reflexivity. Qed.

Lemma qlen_pos {A} (l : list A) : l <> [] -> 0 < qlen l.
Proof.
  destruct l; [congruence|]. intros _. unfold qlen. change 0 with (inject_Z 0). rewrite <- Zlt_Qlt. simpl. lia.
Qed.

Lemma qsum_id_snoc l x : qsum (fun y : Q => y) (l ++ [x]) == qsum (fun y => y) l + x.
Proof. rewrite qsum_app. simpl. lra. Qed.

Lemma sq_dev_expand l m :
  sq_dev l m == qsum (fun x => x * x) l - 2 * m * qsum (fun x => x) l + qlen l * (m * m).
Proof.
  unfold sq_dev. induction l as [|x l IH].
  - unfold qlen. simpl. change (inject_Z 0) with 0. ring.
  - cbn [qsum fold_right]. change (fold_right _ 0 l) with (qsum (fun x => (x - m) * (x - m)) l) at 1.
    change (fold_right (fun a acc => a * a + acc) 0 l) with (qsum (fun x => x * x) l).
    change (fold_right (fun a acc => a + acc) 0 l) with (qsum (fun x : Q => x) l).
    rewrite IH. unfold qlen. cbn [length]. rewrite Nat2Z.inj_succ. unfold Z.succ. rewrite inject_Z_plus.
    change (inject_Z 1) with 1. ring.
Qed.

Lemma batch_mean_mul l : l <> [] -> batch_mean l * qlen l == qsum (fun x => x) l.
Proof. intros H. apply qlen_pos in H. unfold batch_mean. field. lra. Qed.

Lemma welford_mean l x : l <> [] ->
  batch_mean (l ++ [x]) == batch_mean l + (x - batch_mean l) / qlen (l ++ [x]).
Proof.
  intros H. pose proof (qlen_pos l H) as Hp. pose proof (batch_mean_mul l H) as Hm.
  unfold batch_mean at 1. rewrite qsum_id_snoc, <- Hm, qlen_snoc. field. lra.
Qed.

Lemma welford_dev l x : l <> [] ->
  sq_dev (l ++ [x]) (batch_mean (l ++ [x]))
  == sq_dev l (batch_mean l) + (x - batch_mean l) * (x - batch_mean (l ++ [x])).
Proof.
  intros H. pose proof (qlen_pos l H) as Hp. pose proof (batch_mean_mul l H) as Hm.
  assert (Hm' : batch_mean (l ++ [x]) * qlen (l ++ [x]) == qsum (fun x => x) l + x).
  { rewrite batch_mean_mul by (destruct l; discriminate). apply qsum_id_snoc. }
  set (m := batch_mean l) in *. set (m' := batch_mean (l ++ [x])) in *.
  rewrite !sq_dev_expand. rewrite qsum_app, qsum_id_snoc. simpl. rewrite qlen_snoc in *.
  set (s1 := qsum (fun x => x) l) in *. set (s2 := qsum (fun x => x * x) l). set (n := qlen l) in *.
  clearbody m m' s1 s2 n.
  (* s1 = m n, m'(n+1) = s1 + x *)
  assert (E1 : (n + 1) * (m' * m') == m' * (s1 + x)) by (rewrite <- Hm'; ring).
  assert (E2 : n * (m * m) == m * s1) by (rewrite <- Hm; ring).
  assert (E3 : m * (s1 + x) == m * m' * n + m * m') by (rewrite <- Hm'; ring).
  assert (E4 : m' * s1 == m * m' * n) by (rewrite <- Hm; ring).
  transitivity (s2 + x * x - 2 * m' * (s1 + x) + m' * (s1 + x)); [rewrite <- E1; ring|].
  transitivity (s2 - 2 * m * s1 + m * s1 + (x - m) * (x - m')); [|rewrite <- E2; ring].
  lra.
Qed.

Definition rs_inv (s : rstat) (l : list Q) : Prop :=
  rs_num s = length l
  /\ (l <> [] -> rs_old_mean s == batch_mean l /\ rs_new_mean s == batch_mean l
                 /\ rs_old_std s == sq_dev l (batch_mean l))
  /\ ((1 < length l)%nat -> rs_new_std s == sq_dev l (batch_mean l)).

Lemma batch_mean_single x : batch_mean [x] == x.
Proof. unfold batch_mean, qlen. simpl. change (inject_Z 1) with 1. field. Qed.

Lemma rs_step_inv s l o : rs_inv s l -> rs_inv (rs_step s o) (live_step l o).
Proof.
  intros (Hn & Hm & Hv). destruct o as [x|]; simpl.
  - unfold rs_push. rewrite Hn. destruct l as [|a l].
    + simpl. repeat split; simpl; try (symmetry; apply batch_mean_single).
      * unfold sq_dev. simpl. rewrite batch_mean_single. ring.
      * lia.
    + set (l0 := a :: l) in *. assert (Hne : l0 <> []) by (unfold l0; discriminate).
      assert (Hlen : (1 <= length l0)%nat) by (unfold l0; simpl; lia).
      destruct (Nat.eqb_spec (S (length l0)) 1) as [E|E]; [lia|].
      destruct (Hm Hne) as (H1 & H2 & H3).
      assert (EL : inject_Z (Z.of_nat (S (length l0))) == qlen (l0 ++ [x])).
      { unfold qlen. rewrite app_length. simpl. rewrite Nat.add_1_r. reflexivity. }
      assert (EM : rs_old_mean s + (x - rs_old_mean s) / inject_Z (Z.of_nat (S (length l0)))
                   == batch_mean (l0 ++ [x])).
      { rewrite H1, EL. symmetry. apply welford_mean; auto. }
      assert (ES : rs_old_std s + (x - rs_old_mean s) *
                   (x - (rs_old_mean s + (x - rs_old_mean s) / inject_Z (Z.of_nat (S (length l0)))))
                   == sq_dev (l0 ++ [x]) (batch_mean (l0 ++ [x]))).
      { rewrite EM, H1, H3. symmetry. apply welford_dev; auto. }
      repeat split; cbn [rs_num rs_old_mean rs_new_mean rs_old_std rs_new_std]; auto.
      rewrite app_length. simpl. lia.
  - repeat split; simpl; auto; try congruence; try lia.
Qed.

Lemma rs_fold_inv h s l : rs_inv s l -> rs_inv (fold_left rs_step h s) (fold_left live_step h l).
Proof.
  revert s l; induction h as [|o h IH]; simpl; intros s l H; auto. apply IH, rs_step_inv; auto.
Qed.

Lemma rs_init_inv : rs_inv rs_init [].
Proof. repeat split; simpl; try congruence; lia. Qed.

Lemma rs_run_inv h : rs_inv (rs_run h) (fold_left live_step h []).
Proof. apply rs_fold_inv, rs_init_inv. Qed.

Lemma rs_inv_stats s l : rs_inv s l ->
  rs_num_data_values s = length l
  /\ rs_mean s == (if (length l =? 0)%nat then 0 else batch_mean l)
  /\ rs_variance s == (if (length l <=? 1)%nat then 0 else batch_variance l).
Proof.
  intros (Hn & Hm & Hv). unfold rs_num_data_values, rs_mean, rs_variance. rewrite Hn.
  split; [reflexivity|]. split.
  - destruct l as [|a l]; simpl; [reflexivity|]. apply Hm. discriminate.
  - destruct (Nat.leb_spec (length l) 1) as [H|H].
    + destruct (Nat.ltb_spec 1 (length l)); [lia|reflexivity].
    + destruct (Nat.ltb_spec 1 (length l)); [|lia]. rewrite Hv by auto.
      unfold batch_variance, sq_dev.
      replace (inject_Z (Z.of_nat (length l - 1))) with (inject_Z (Z.of_nat (length l) + - 1)) by (f_equal; lia).
      rewrite inject_Z_plus. reflexivity.
Qed.

(** The values pushed since the last clear, characterised without an accumulator. *)
Lemma live_pushes l acc : fold_left live_step (map RsPush l) acc = acc ++ l.
Proof.
  revert acc; induction l as [|x l IH]; simpl; intros acc; [rewrite app_nil_r; auto|].
  rewrite IH. simpl. rewrite <- app_assoc. reflexivity.
Qed.

Lemma live_after_clear h l acc :
  fold_left live_step (h ++ RsClear :: map RsPush l) acc = l.
Proof. rewrite fold_left_app. simpl. rewrite live_pushes. reflexivity. Qed.

(** Every history is a block of pushes, possibly preceded by a history ending in a clear. *)
Lemma history_split h :
  exists l, (h = map RsPush l \/ exists h0, h = h0 ++ RsClear :: map RsPush l)
            /\ fold_left live_step h [] = l.
Proof.
  induction h as [|o h IH] using rev_ind.
  - exists []. simpl. auto.
  - destruct IH as [l [[->|[h0 ->]] E]].
    + destruct o as [x|].
      * exists (l ++ [x]). split; [left; rewrite map_app; reflexivity|].
        rewrite fold_left_app, E. reflexivity.
      * exists []. split; [right; exists (map RsPush l); reflexivity|].
        rewrite fold_left_app. reflexivity.
    + destruct o as [x|].
      * exists (l ++ [x]). split; [right; exists h0; rewrite map_app, <- app_assoc; reflexivity|].
        rewrite fold_left_app, E. reflexivity.
      * exists []. split; [right; eexists; simpl; reflexivity|].
        rewrite fold_left_app. reflexivity.
Qed.

Lemma rs_run_stats h0 l :
  forall h, (h = map RsPush l \/ h = h0 ++ RsClear :: map RsPush l) ->
  rs_num_data_values (rs_run h) = length l
  /\ rs_mean (rs_run h) == (if (length l =? 0)%nat then 0 else batch_mean l)
  /\ rs_variance (rs_run h) == (if (length l <=? 1)%nat then 0 else batch_variance l).
Proof.
  intros h H. apply rs_inv_stats. pose proof (rs_run_inv h) as I.
  replace (fold_left live_step h []) with l in I; auto.
  destruct H as [->| ->]; [rewrite live_pushes; auto|rewrite live_after_clear; auto].
Qed.

Lemma batch_variance_nonneg l : (1 < length l)%nat -> 0 <= batch_variance l.
Proof.
  intros H. unfold batch_variance. apply Qle_shift_div_l.
  - unfold qlen. change 1 with (inject_Z 1). unfold Qminus. rewrite <- inject_Z_opp, <- inject_Z_plus.
    change 0 with (inject_Z 0). rewrite <- Zlt_Qlt. lia.
  - rewrite Qmult_0_l. apply qsum_nonneg. intros. apply Qsq_nonneg.
Qed.

Lemma rs_inv_variance s l : rs_inv s l -> 0 <= rs_variance s.
Proof.
  intros H. destruct (rs_inv_stats s l H) as (_ & _ & E). rewrite E.
  destruct (Nat.leb_spec (length l) 1); [lra|]. apply batch_variance_nonneg; auto.
Qed.

Lemma rs_variance_nonneg h : 0 <= rs_variance (rs_run h).
Proof. eapply rs_inv_variance, rs_run_inv. Qed.

Lemma batch_mean_bounds l lo hi : l <> [] ->
  (forall x, In x l -> lo <= x <= hi) -> lo <= batch_mean l <= hi.
Proof.
  intros Hne H. pose proof (qlen_pos l Hne) as Hp.
  assert (H1 : qsum (fun _ => lo) l <= qsum (fun x => x) l) by (apply qsum_le; intros; apply H; auto).
  assert (H2 : qsum (fun x => x) l <= qsum (fun _ => hi) l) by (apply qsum_le; intros; apply H; auto).
  rewrite qsum_const in H1, H2. fold (qlen l) in H1, H2. unfold batch_mean. split.
  - apply Qle_shift_div_l; auto. lra.
  - apply Qle_shift_div_r; auto. lra.
Qed.

(** ** Tuner states *)

Definition score_ok (c : Q) (f : Q) (l : list Q) : Prop := f == final_score c l.

Record tinv (c : Q) (p : param) (cr : list (list Q)) (cur : nat) : Prop := {
  ti_len : length (pm_values p) = length cr;
  ti_scores : Forall2 rs_inv (pm_scores p) cr;
  ti_final : Forall2 (score_ok c) (pm_final p) cr;
  ti_counts : pm_counts p = map (@length Q) cr;
  ti_total : pm_total p = nsum (@length Q) cr;
  ti_cfac : pm_cfac p = c;
  ti_cur : pm_cur p = cur;
  ti_cur_lt : (cur < length cr \/ cur = 0)%nat
}.

Lemma Forall2_snoc {A B} (R : A -> B -> Prop) l m a b :
  Forall2 R l m -> R a b -> Forall2 R (l ++ [a]) (m ++ [b]).
Proof. intros. apply Forall2_app; auto. Qed.

Lemma Forall2_len {A B} (R : A -> B -> Prop) l m : Forall2 R l m -> length l = length m.
Proof. induction 1; simpl; auto. Qed.

Lemma Forall2_nth {A B} (R : A -> B -> Prop) l m i a :
  Forall2 R l m -> nth_error l i = Some a -> exists b, nth_error m i = Some b /\ R a b.
Proof.
  intros H. revert i; induction H; intros [|i]; simpl; intros E; try discriminate.
  - inversion E; subst. eauto.
  - auto.
Qed.

Lemma Forall2_nth_r {A B} (R : A -> B -> Prop) l m i b :
  Forall2 R l m -> nth_error m i = Some b -> exists a, nth_error l i = Some a /\ R a b.
Proof.
  intros H. revert i; induction H; intros [|i]; simpl; intros E; try discriminate.
  - inversion E; subst. eauto.
  - auto.
Qed.

Lemma Forall2_update {A} (R : A -> list Q -> Prop) l m i a s lc :
  Forall2 R l m -> nth_error m i = Some lc -> R a (lc ++ [s]) ->
  Forall2 R (set_nth l i a) (append_at m i s).
Proof.
  intros H. revert i; induction H; intros [|i]; simpl; intros E HR; try discriminate.
  - inversion E; subst. constructor; auto.
  - constructor; auto.
Qed.

Lemma append_at_out m i s : (length m <= i)%nat -> append_at m i s = m.
Proof.
  revert i; induction m as [|l m IH]; intros [|i] H; simpl in *; auto; try lia.
  rewrite IH by lia. reflexivity.
Qed.

Lemma append_at_length m i s : length (append_at m i s) = length m.
Proof. revert i; induction m as [|l m IH]; intros [|i]; simpl; auto. Qed.

Lemma append_at_nth m i s j :
  nth_error (append_at m i s) j =
  match nth_error m j with
  | Some l => Some (if (j =? i)%nat then l ++ [s] else l)
  | None => None
  end.
Proof.
  revert i j; induction m as [|l m IH]; intros [|i] [|j]; simpl; auto.
  - destruct (nth_error m j); auto.
Qed.

Lemma counts_update m i s lc : nth_error m i = Some lc ->
  set_nth (map (@length Q) m) i (S (length lc)) = map (@length Q) (append_at m i s).
Proof.
  revert i; induction m as [|l m IH]; intros [|i]; simpl; intros E; try discriminate.
  - inversion E; subst. rewrite app_length. simpl. f_equal. lia.
  - f_equal. apply IH; auto.
Qed.

Lemma total_update m i s lc : nth_error m i = Some lc ->
  nsum (@length Q) (append_at m i s) = S (nsum (@length Q) m).
Proof.
  revert i; induction m as [|l m IH]; intros [|i]; simpl; intros E; try discriminate.
  - rewrite app_length. simpl. lia.
  - rewrite (IH i) by auto. lia.
Qed.

Lemma tinv_init c : tinv c (param_init c) [] 0.
Proof. constructor; simpl; auto; lia. Qed.

Lemma adjust_spec c p cr cur s oi :
  tinv c p cr cur ->
  let j := match oi with None => cur | Some i => i end in
  match adjust_score p s oi with
  | Ok p' => (j < length cr)%nat /\ tinv c p' (append_at cr j s) cur
             /\ pm_values p' = pm_values p /\ pm_explore p' = pm_explore p /\ pm_switch p' = pm_switch p
  | Err e => e = IndexError /\ (length cr <= j)%nat
  end.
Proof.
  intros I j. unfold adjust_score. rewrite (ti_cur _ _ _ _ I). fold j.
  destruct (nth_error cr j) as [lc|] eqn:E.
  - destruct (Forall2_nth_r _ _ _ _ _ (ti_scores _ _ _ _ I) E) as (st & Es & Rs).
    destruct (Forall2_nth_r _ _ _ _ _ (ti_final _ _ _ _ I) E) as (f & Ef & Rf).
    unfold getitem. rewrite Es. simpl.
    rewrite (ti_counts _ _ _ _ I), nth_error_map, E. simpl. rewrite Ef. simpl.
    assert (Hj : (j < length cr)%nat) by (apply nth_error_Some; congruence).
    split; [exact Hj|]. split; [|auto].
    pose proof (rs_step_inv st lc (RsPush s) Rs) as Rs'. simpl in Rs'.
    destruct (rs_inv_stats _ _ Rs') as (_ & Hmean & _).
    constructor; simpl.
    + rewrite append_at_length. apply (ti_len _ _ _ _ I).
    + eapply Forall2_update; eauto. apply (ti_scores _ _ _ _ I).
    + eapply Forall2_update; eauto. { apply (ti_final _ _ _ _ I). }
      unfold score_ok, final_score. destruct (lc ++ [s]) as [|x l0] eqn:El; [destruct lc; discriminate|].
      rewrite <- El in *. unfold sample_mean. rewrite Hmean, (ti_cfac _ _ _ _ I).
      replace (qlen (lc ++ [s])) with (inject_Z (Z.of_nat (S (length lc))))
        by (unfold qlen; rewrite app_length; simpl; rewrite Nat.add_1_r; reflexivity).
      reflexivity.
    + apply counts_update; auto.
    + rewrite (total_update _ _ _ _ E). f_equal. apply (ti_total _ _ _ _ I).
    + apply (ti_cfac _ _ _ _ I).
    + reflexivity.
    + rewrite append_at_length. apply (ti_cur_lt _ _ _ _ I).
  - assert (Hn : nth_error (pm_scores p) j = None).
    { apply nth_error_None. rewrite (Forall2_len _ _ _ (ti_scores _ _ _ _ I)). apply nth_error_None; auto. }
    unfold getitem. rewrite Hn. simpl. split; auto. apply nth_error_None; auto.
Qed.

(** *** Choice of an index *)

Lemma argmax_spec final n :
  (0 < n)%nat ->
  (argmax_final final n < n)%nat /\
  forall i, (i < n)%nat -> nth i final 0 <= nth (argmax_final final n) final 0.
Proof.
  unfold argmax_final. induction n as [|n IH]; [lia|]. intros _.
  rewrite seq_S, fold_left_app. simpl. set (b := fold_left _ (seq 0 n) 0%nat) in *.
  destruct n as [|n].
  - assert (Hb : b = 0%nat) by reflexivity.
    assert (Hn : Qltb (nth b final 0) (nth 0 final 0) = false) by (rewrite Hb; apply Qltb_false; lra).
    rewrite Hn, Hb. split; [lia|]. intros i Hi. replace i with 0%nat by lia. lra.
  - destruct IH as [Hb Hm]; [lia|].
    destruct (Qltb (nth b final 0) (nth (S n) final 0)) eqn:E.
    + split; [lia|]. apply Qltb_true in E. intros i Hi.
      destruct (Nat.eq_dec i (S n)) as [->|Hne]; [lra|].
      specialize (Hm i ltac:(lia)). lra.
    + split; [lia|]. apply Qltb_false in E. intros i Hi.
      destruct (Nat.eq_dec i (S n)) as [->|Hne]; [lra|]. apply Hm. lia.
Qed.

Definition near_test (p : param) (best i : nat) : bool :=
  let fb := nth best (pm_final p) 0 in let fi := nth i (pm_final p) 0 in
  Qle_bool fb fi || Qle_bool (100 * ((fb - fi) * (fb - fi))) (rs_variance (nth i (pm_scores p) rs_init)).

Lemma near_best_ok p best l :
  (forall i, In i l -> 0 <= rs_variance (nth i (pm_scores p) rs_init)) ->
  near_best p best l = Ok (filter (near_test p best) l).
Proof.
  induction l as [|i l IH]; intros H; simpl; auto.
  unfold std_test. assert (E : Qltb (rs_variance (nth i (pm_scores p) rs_init)) 0 = false)
    by (apply Qltb_false; apply H; left; auto).
  rewrite E. simpl. rewrite IH by (intros; apply H; right; auto). simpl.
  unfold near_test at 2. reflexivity.
Qed.

Lemma var_nonneg c p cr cur i : tinv c p cr cur -> 0 <= rs_variance (nth i (pm_scores p) rs_init).
Proof.
  intros I. destruct (nth_error (pm_scores p) i) as [s|] eqn:E.
  - rewrite (nth_error_nth _ _ _ E). destruct (Forall2_nth _ _ _ _ _ (ti_scores _ _ _ _ I) E) as (l & _ & R).
    eapply rs_inv_variance; eauto.
  - rewrite nth_overflow by (apply nth_error_None; auto). apply Qle_refl.
Qed.

(** The bucket of lines 95-110. *)
Definition bucket_of (p : param) : list nat :=
  let n := length (pm_values p) in
  match undersampled (pm_counts p) n with
  | [] => filter (near_test p (argmax_final (pm_final p) n)) (seq 0 n)
  | b => b
  end.

Lemma near_test_refl p i : near_test p i i = true.
Proof. unfold near_test. apply orb_true_iff. left. apply Qle_bool_iff. lra. Qed.

Lemma bucket_nonempty p : pm_values p <> [] -> bucket_of p <> [].
Proof.
  intros H. unfold bucket_of. destruct (undersampled _ _) as [|x l]; [|discriminate].
  set (b := argmax_final _ _).
  assert (Hb : In b (filter (near_test p b) (seq 0 (length (pm_values p))))).
  { apply filter_In. split; [|apply near_test_refl]. apply in_seq. simpl. split; [lia|].
    apply argmax_spec. destruct (pm_values p); [congruence|simpl; lia]. }
  intros E. rewrite E in Hb. contradiction.
Qed.

Lemma bucket_in_range p i : In i (bucket_of p) -> (i < length (pm_values p))%nat.
Proof.
  unfold bucket_of. destruct (undersampled _ _) as [|x l] eqn:E.
  - intros H. apply filter_In in H. destruct H as [H _]. apply in_seq in H. lia.
  - rewrite <- E. intros H. unfold undersampled in H. apply filter_In in H. destruct H as [H _].
    apply in_seq in H. lia.
Qed.

Lemma exploit_ok c p cr cur rng : tinv c p cr cur -> pm_values p <> [] ->
  exists k d, (k < length (bucket_of p))%nat /\ exploit_index p rng = Ok (nth k (bucket_of p) 0%nat, d)
  /\ ((length (bucket_of p) > 1)%nat -> k = (rng (pm_draws p) mod length (bucket_of p))%nat).
Proof.
  intros I Hv. unfold exploit_index.
  assert (E : (match undersampled (pm_counts p) (length (pm_values p)) with
               | [] => near_best p (argmax_final (pm_final p) (length (pm_values p)))
                         (seq 0 (length (pm_values p)))
               | b => Ok b end) = Ok (bucket_of p)).
  { unfold bucket_of. destruct (undersampled _ _); auto. apply near_best_ok. intros. eapply var_nonneg; eauto. }
  rewrite E. simpl. pose proof (bucket_nonempty p Hv) as Hb.
  destruct (bucket_of p) as [|x b] eqn:EB; [congruence|]. simpl.
  destruct b as [|y b].
  - simpl. exists 0%nat, (pm_draws p). simpl. repeat split; auto; lia.
  - simpl length. cbn [Nat.ltb Nat.leb]. simpl randrange. cbn [bind].
    eexists (rng (pm_draws p) mod S (S (length b)))%nat, _. repeat split.
    + apply Nat.mod_upper_bound. lia.
Qed.

Lemma explore_ok p rng : pm_values p <> [] ->
  exists i d, (i < length (pm_values p))%nat /\ explore_index p rng = Ok (i, d).
Proof.
  intros Hv. unfold explore_index. destruct (Nat.eqb_spec (length (pm_values p)) 2) as [E|E].
  - destruct (0 <? Z.land _ _)%Z; eexists _, _; split; try reflexivity; lia.
  - destruct (length (pm_values p)) eqn:El; [destruct (pm_values p); [congruence|discriminate]|].
    unfold randrange; cbn [bind]; eexists _, _; split; [|reflexivity]. apply Nat.mod_upper_bound. lia.
Qed.

Lemma best_ok c p cr cur rng : tinv c p cr cur -> pm_values p <> [] ->
  exists v p', get_best_value rng p = Ok (v, p')
  /\ nth_error (pm_values p') (pm_cur p') = Some v
  /\ pm_values p' = pm_values p
  /\ pm_explore p' = (if 0 <? pm_explore p then pm_explore p - 1 else pm_explore p)%Z
  /\ pm_switch p' = pm_switch p
  /\ (pm_cur p' < length cr)%nat
  /\ tinv c p' cr (pm_cur p').
Proof.
  intros I Hv. unfold get_best_value.
  assert (Hidx : exists i d, (i < length (pm_values p))%nat
    /\ (if (0 <? pm_explore p)%Z then explore_index p rng else exploit_index p rng) = Ok (i, d)).
  { destruct (0 <? pm_explore p)%Z.
    - destruct (explore_ok p rng Hv) as (i & d & ? & ?). eauto.
    - destruct (exploit_ok c p cr cur rng I Hv) as (k & d & Hk & E & _). eexists _, _. split; [|exact E].
      apply bucket_in_range. apply nth_In; auto. }
  destruct Hidx as (i & d & Hi & E). rewrite E. simpl.
  destruct (getitem_lt (pm_values p) i Hi) as [v Ev]. rewrite Ev. simpl.
  eexists _, _. split; [reflexivity|]. simpl. apply getitem_ok in Ev.
  rewrite (ti_len _ _ _ _ I) in Hi.
  repeat split; auto; try apply I; simpl; auto.
Qed.

Lemma best_empty p rng : pm_values p = [] ->
  get_best_value rng p = Err (if (0 <? pm_explore p)%Z then ValueError else AssertionError).
Proof.
  intros E. unfold get_best_value, explore_index, exploit_index. rewrite E. simpl.
  destruct (0 <? pm_explore p)%Z; reflexivity.
Qed.

(** *** Histories *)

Lemma step_inv c p cr cur rng o :
  tinv c p cr cur ->
  tinv c (fst (tuner_step rng p o)) (fst (credit_step (cr, cur) (event_of rng p o)))
         (snd (credit_step (cr, cur) (event_of rng p o))).
Proof.
  intros I. destruct o as [v|f|n|s oi|]; simpl.
  - constructor; simpl; try apply I.
    + rewrite !app_length, (ti_len _ _ _ _ I). reflexivity.
    + apply Forall2_snoc; [apply I|apply rs_init_inv].
    + apply Forall2_snoc; [apply I|]. unfold score_ok. simpl. reflexivity.
    + rewrite (ti_counts _ _ _ _ I), map_app. reflexivity.
    + rewrite (ti_total _ _ _ _ I), nsum_app. simpl. lia.
    + rewrite app_length. simpl. destruct (ti_cur_lt _ _ _ _ I); lia.
  - constructor; simpl; apply I.
  - constructor; simpl; apply I.
  - pose proof (adjust_spec c p cr cur s oi I) as A. destruct (adjust_score p s oi) as [p'|e]; simpl.
    + destruct oi; apply A.
    + destruct A as [_ A]. destruct oi; rewrite append_at_out by auto; apply I.
  - destruct (pm_values p) as [|v0 vs] eqn:Ev.
    + rewrite best_empty by auto. destruct (0 <? pm_explore p)%Z; simpl; auto.
    + destruct (best_ok c p cr cur rng I) as (v & p' & E & _ & _ & _ & _ & _ & I'); [congruence|].
      rewrite E. simpl. auto.
Qed.

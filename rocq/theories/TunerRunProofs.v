(** Lemmas about histories of tuner calls (TunerModel.v). *)
From Verif Require Import Base TunerModel SpecTuner TunerObs TunerProofs.
From Coq Require Import Reals Qreals Lra.
Open Scope Q_scope.

Lemma run_cons rng p o h :
  tuner_run rng p (o :: h) =
  (fst (tuner_run rng (fst (tuner_step rng p o)) h),
   snd (tuner_step rng p o) :: snd (tuner_run rng (fst (tuner_step rng p o)) h)).
Proof.
  simpl. destruct (tuner_step rng p o) as [p1 out]. simpl.
  destruct (tuner_run rng p1 h) as [p2 outs]. reflexivity.
Qed.

Lemma run_inv rng c p cr cur h :
  tinv c p cr cur ->
  tinv c (fst (tuner_run rng p h)) (fst (fold_left credit_step (tuner_log rng p h) (cr, cur)))
         (snd (fold_left credit_step (tuner_log rng p h) (cr, cur))).
Proof.
  revert p cr cur. induction h as [|o h IH]; intros p cr cur I; [exact I|].
  rewrite run_cons. cbn [fst tuner_log fold_left].
  pose proof (step_inv c p cr cur rng o I) as I'.
  destruct (credit_step (cr, cur) (event_of rng p o)) as [cr' cur'] eqn:E. simpl in I'.
  apply IH. exact I'.
Qed.

Lemma state_inv rng c h :
  tinv c (tuner_state rng c h) (credits (tuner_log rng (param_init c) h))
         (last_chosen (tuner_log rng (param_init c) h)).
Proof. apply run_inv, tinv_init. Qed.

Lemma step_values rng p o :
  pm_values (fst (tuner_step rng p o)) = pm_values p ++ match o with TAdd v => [v] | _ => [] end.
Proof.
  destruct o as [v|f|n|s oi|]; simpl; try rewrite app_nil_r; auto.
  - destruct (adjust_score p s oi) as [p'|e] eqn:E; auto. unfold adjust_score in E. inv_ok. reflexivity.
  - destruct (get_best_value rng p) as [[v p']|e] eqn:E; auto. unfold get_best_value in E. inv_ok.
    destruct v0. inv_ok. reflexivity.
Qed.

Lemma run_values rng p h : pm_values (fst (tuner_run rng p h)) = pm_values p ++ added h.
Proof.
  revert p; induction h as [|o h IH]; intros p; [simpl; rewrite app_nil_r; auto|].
  rewrite run_cons. cbn [fst]. rewrite IH, step_values, <- app_assoc. reflexivity.
Qed.

Lemma log_registered rng p h : registered (tuner_log rng p h) = added h.
Proof.
  revert p; induction h as [|o h IH]; intros p; [reflexivity|].
  cbn [tuner_log added flat_map]. fold (added h).
  destruct o as [v|f|n|s oi|]; simpl; try (rewrite IH; reflexivity).
  destruct (get_best_value rng p) as [[v p']|e]; simpl; rewrite IH; reflexivity.
Qed.

Lemma credits_length log : length (credits log) = length (registered log).
Proof.
  unfold credits.
  assert (H : forall l cr cur, length (fst (fold_left credit_step l (cr, cur)))
                               = (length cr + length (registered l))%nat).
  { induction l as [|e l IH]; intros cr cur; [simpl; lia|].
    cbn [fold_left registered]. destruct e as [v|s [i|]|i|]; cbn [credit_step]; rewrite IH;
      rewrite ?app_length, ?append_at_length; simpl; lia. }
  rewrite H. reflexivity.
Qed.

(** ** Exploitation *)

Lemma near_test_real (fi fb v : Q) : 0 <= v ->
  (Qle_bool fb fi || Qle_bool (100 * ((fb - fi) * (fb - fi))) v = true
   <-> (Q2R fi + sqrt (Q2R v) / 10 >= Q2R fb)%R).
Proof.
  intros Hv. assert (HvR : (0 <= Q2R v)%R) by (replace 0%R with (Q2R 0) by (unfold Q2R; simpl; lra); apply Qle_Rle; auto).
  rewrite orb_true_iff, !Qle_bool_iff.
  pose proof (sqrt_pos (Q2R v)) as Hs. pose proof (sqrt_sqrt (Q2R v) HvR) as Hss.
  assert (E100 : Q2R (100 * ((fb - fi) * (fb - fi))) = (100 * ((Q2R fb - Q2R fi) * (Q2R fb - Q2R fi)))%R).
  { rewrite !Q2R_mult, Q2R_minus. f_equal. unfold Q2R; simpl; lra. }
  split.
  - intros [H|H].
    + apply Qle_Rle in H. lra.
    + apply Qle_Rle in H. rewrite E100 in H.
      destruct (Rle_or_lt (Q2R fb) (Q2R fi)) as [L|L]; [lra|].
      apply Rnot_lt_ge. intros Hlt.
      set (d := (Q2R fb - Q2R fi)%R) in *. set (s := sqrt (Q2R v)) in *.
      assert (Hd : (s < 10 * d)%R) by (unfold d; lra).
      assert (Hd0 : (0 < d)%R) by (unfold d; lra).
      nra.
  - intros H. destruct (Qlt_le_dec fi fb) as [L|L]; [right|left; auto].
    apply Rle_Qle. rewrite E100. apply Qlt_Rlt in L.
    set (d := (Q2R fb - Q2R fi)%R) in *. set (s := sqrt (Q2R v)) in *.
    assert (Hd : (10 * d <= s)%R) by (unfold d; lra).
    assert (Hd0 : (0 < d)%R) by (unfold d; lra).
    nra.
Qed.

Lemma near_test_spec c p cr cur best i :
  tinv c p cr cur -> (i < length cr)%nat -> (best < length cr)%nat ->
  (forall j, (j < length cr)%nat -> nth j (pm_final p) 0 <= nth best (pm_final p) 0) ->
  (near_test p best i = true <-> near_best_pos c cr i).
Proof.
  intros I Hi Hb Hmax. unfold near_test.
  rewrite near_test_real by (eapply var_nonneg; eauto).
  destruct (nth_error cr i) as [l|] eqn:E; [|apply nth_error_None in E; lia].
  destruct (Forall2_nth_r _ _ _ _ _ (ti_scores _ _ _ _ I) E) as (s & Es & Rs).
  destruct (Forall2_nth_r _ _ _ _ _ (ti_final _ _ _ _ I) E) as (f & Ef & Rf).
  rewrite (nth_error_nth _ _ _ Es), (nth_error_nth (pm_final p) i 0 Ef).
  destruct (rs_inv_stats _ _ Rs) as (_ & _ & Hvar). fold (sample_variance l) in Hvar.
  rewrite (Qeq_eqR _ _ Hvar), (Qeq_eqR _ _ Rf).
  unfold near_best_pos. split.
  - intros H. exists l. split; auto. intros l' Hl'. apply In_nth_error in Hl'. destruct Hl' as [j Ej].
    destruct (Forall2_nth_r _ _ _ _ _ (ti_final _ _ _ _ I) Ej) as (f' & Ef' & Rf').
    assert (Hj : (j < length cr)%nat) by (apply nth_error_Some; congruence).
    specialize (Hmax j Hj). rewrite (nth_error_nth (pm_final p) j 0 Ef') in Hmax.
    apply Qle_Rle in Hmax. rewrite (Qeq_eqR _ _ Rf') in Hmax. lra.
  - intros (l0 & E0 & H). rewrite E in E0. inversion E0; subst l0.
    destruct (nth_error cr best) as [lb|] eqn:Eb; [|apply nth_error_None in Eb; lia].
    destruct (Forall2_nth_r _ _ _ _ _ (ti_final _ _ _ _ I) Eb) as (fb & Efb & Rfb).
    rewrite (nth_error_nth (pm_final p) best 0 Efb), (Qeq_eqR _ _ Rfb). apply H.
    eapply nth_error_In; eauto.
Qed.

Lemma undersampled_spec c p cr cur i : tinv c p cr cur ->
  (In i (undersampled (pm_counts p) (length (pm_values p))) <-> undersampled_pos cr i).
Proof.
  intros I. unfold undersampled, undersampled_pos. rewrite filter_In, in_seq, Nat.ltb_lt.
  rewrite (ti_len _ _ _ _ I), (ti_counts _ _ _ _ I). split.
  - intros [[_ Hi] Hc]. destruct (nth_error cr i) as [l|] eqn:E; [|apply nth_error_None in E; simpl in Hi; lia].
    exists l. split; auto. rewrite (nth_error_nth (map (@length Q) cr) i 0%nat (x:=length l)) in Hc; auto.
    rewrite nth_error_map, E. reflexivity.
  - intros (l & E & Hl). assert (Hi : (i < length cr)%nat) by (apply nth_error_Some; congruence).
    split; [lia|]. rewrite (nth_error_nth (map (@length Q) cr) i 0%nat (x:=length l)); auto.
    rewrite nth_error_map, E. reflexivity.
Qed.

Lemma bucket_spec c p cr cur i : tinv c p cr cur ->
  (In i (bucket_of p) <-> exploit_choice c cr i).
Proof.
  intros I. unfold bucket_of, exploit_choice.
  destruct (undersampled (pm_counts p) (length (pm_values p))) as [|x l] eqn:E.
  - assert (Hno : ~ exists j, undersampled_pos cr j).
    { intros [j Hj]. apply (undersampled_spec c p cr cur j I) in Hj. rewrite E in Hj. contradiction. }
    rewrite filter_In, in_seq, (ti_len _ _ _ _ I). split.
    + intros [[_ Hi] Ht]. right. split; auto. simpl in Hi.
      eapply near_test_spec in Ht; eauto.
      * apply argmax_spec. lia.
      * apply argmax_spec. lia.
    + intros [H|[_ H]]; [exfalso; eauto|].
      assert (Hi : (i < length cr)%nat) by (destruct H as (l & El & _); apply nth_error_Some; congruence).
      split; [lia|]. eapply near_test_spec; eauto.
      * apply argmax_spec. lia.
      * apply argmax_spec. lia.
  - rewrite <- E, (undersampled_spec c p cr cur i I). split; [auto|]. intros [H|[H _]]; auto.
    exfalso. apply H. exists x. apply (undersampled_spec c p cr cur x I). rewrite E. left; auto.
Qed.

Lemma exploit_choice_ok c p cr cur rng v p' :
  tinv c p cr cur -> (pm_explore p <= 0)%Z -> get_best_value rng p = Ok (v, p') ->
  nth_error (pm_values p) (pm_cur p') = Some v /\ exploit_choice c cr (pm_cur p').
Proof.
  intros I He E.
  destruct (pm_values p) as [|v0 vs] eqn:Ev; [rewrite best_empty in E by auto; discriminate|].
  assert (Hv : pm_values p <> []) by congruence.
  destruct (exploit_ok c p cr cur rng I Hv) as (k & d & Hk & Ek & _).
  unfold get_best_value in E. replace (0 <? pm_explore p)%Z with false in E by (symmetry; apply Z.ltb_ge; lia).
  rewrite Ek in E. simpl in E. inv_ok. simpl. rewrite <- Ev. split.
  - apply getitem_ok; auto.
  - apply (bucket_spec c p cr cur _ I). apply nth_In; auto.
Qed.

Lemma exploit_choice_all c p cr cur i :
  tinv c p cr cur -> (pm_explore p <= 0)%Z -> exploit_choice c cr i ->
  exists rng v p', get_best_value rng p = Ok (v, p') /\ pm_cur p' = i.
Proof.
  intros I He Hc. apply (bucket_spec c p cr cur i I) in Hc.
  apply In_nth with (d := 0%nat) in Hc. destruct Hc as (k & Hk & Ei).
  assert (Hv : pm_values p <> []).
  { intros E. assert (H : In (nth k (bucket_of p) 0%nat) (bucket_of p)) by (apply nth_In; auto).
    apply bucket_in_range in H. rewrite E in H. simpl in H. lia. }
  exists (fun _ => k).
  destruct (exploit_ok c p cr cur (fun _ => k) I Hv) as (k' & d & Hk' & Ek & Hmod).
  assert (k' = k).
  { destruct (Nat.eq_dec (length (bucket_of p)) 1); [lia|]. rewrite Hmod by lia. apply Nat.mod_small; auto. }
  subst k'. unfold get_best_value.
  replace (0 <? pm_explore p)%Z with false by (symmetry; apply Z.ltb_ge; lia). rewrite Ek. simpl.
  assert (Hr : (nth k (bucket_of p) 0 < length (pm_values p))%nat) by (apply bucket_in_range, nth_In; auto).
  destruct (getitem_lt _ _ Hr) as [v Ev]. rewrite Ev. simpl. eexists _, _. split; [reflexivity|]. simpl. auto.
Qed.

(** ** Exploration *)

Definition second_turn (flag n : Z) : bool := (0 <? Z.land flag n)%Z.

Lemma explore_schedule_aux rng h : forall p v0 v1,
  pm_values p = [v0; v1] ->
  forallb score_or_best h = true ->
  let k := length (filter is_best h) in
  (Z.of_nat k <= pm_explore p)%Z ->
  returned (snd (tuner_run rng p h)) =
    map (fun j => if second_turn (pm_switch p) (pm_explore p - Z.of_nat j) then v1 else v0) (seq 0 k)
  /\ pm_explore (fst (tuner_run rng p h)) = (pm_explore p - Z.of_nat k)%Z.
Proof.
  induction h as [|o h IH]; intros p v0 v1 Hv Hh k Hk.
  { split; [reflexivity|]. simpl. lia. }
  simpl in Hh. apply andb_true_iff in Hh. destruct Hh as [Ho Hh].
  rewrite run_cons. cbn [fst snd].
  destruct o as [v|f|n|s oi|]; simpl in Ho; try discriminate.
  - assert (A : pm_values (fst (tuner_step rng p (TAdjust s oi))) = [v0; v1]
              /\ pm_explore (fst (tuner_step rng p (TAdjust s oi))) = pm_explore p
              /\ pm_switch (fst (tuner_step rng p (TAdjust s oi))) = pm_switch p
              /\ returned [snd (tuner_step rng p (TAdjust s oi))] = []).
    { simpl. destruct (adjust_score p s oi) as [p'|e] eqn:E; simpl; auto.
      unfold adjust_score in E. inv_ok. simpl. auto. }
    destruct A as (A1 & A2 & A3 & A4).
    destruct (IH _ v0 v1 A1 Hh) as [R1 R2]; [rewrite A2; exact Hk|].
    unfold returned in A4 |- *. cbn [flat_map] in A4 |- *. rewrite app_nil_r in A4. rewrite A4. cbn [app].
    unfold returned in R1. rewrite R1, R2, A2, A3. split; reflexivity.
  - subst k. cbn [filter is_best length] in Hk |- *. set (k := length (filter is_best h)) in *.
    assert (A : exists p', tuner_step rng p TBest
                = (p', TVal (if second_turn (pm_switch p) (pm_explore p) then v1 else v0))
              /\ pm_values p' = [v0; v1] /\ pm_explore p' = (pm_explore p - 1)%Z
              /\ pm_switch p' = pm_switch p).
    { cbn [tuner_step]. unfold get_best_value. replace (0 <? pm_explore p)%Z with true by (symmetry; apply Z.ltb_lt; lia).
      unfold explore_index. rewrite Hv. simpl. unfold second_turn.
      destruct (0 <? Z.land (pm_switch p) (pm_explore p))%Z; simpl; eexists; split; try reflexivity; auto. }
    destruct A as (p' & A0 & A1 & A2 & A3). rewrite A0. cbn [fst snd].
    destruct (IH p' v0 v1 A1 Hh) as [R1 R2]; [rewrite A2; lia|]. fold k in R1, R2.
    unfold returned in *. cbn [flat_map app]. rewrite R1, R2, A2, A3. split; [|lia].
    cbn [seq map]. f_equal.
    + simpl. rewrite Z.sub_0_r. reflexivity.
    + rewrite <- seq_shift, map_map. apply map_ext. intros j.
      replace (pm_explore p - 1 - Z.of_nat j)%Z with (pm_explore p - Z.of_nat (S j))%Z by lia. reflexivity.
Qed.

(** Counting over a window of consecutive integers. *)
Definition window (f : Z -> nat) (e : Z) (n : nat) : nat := nsum (fun j => f (e - Z.of_nat j)%Z) (seq 0 n).

Lemma window_shift f e n : (f (e + 1)%Z + window f e n = window f (e + 1) n + f (e + 1 - Z.of_nat n)%Z)%nat.
Proof.
  unfold window. induction n as [|n IH].
  - simpl. rewrite Z.sub_0_r. lia.
  - rewrite !seq_S, !nsum_app. simpl. rewrite !Nat.add_0_r.
    replace (e + 1 - Z.pos (Pos.of_succ_nat n))%Z with (e - Z.of_nat n)%Z by lia. lia.
Qed.

Lemma window_period f n : (forall z, f (z + Z.of_nat n)%Z = f z) -> forall e, window f e n = window f 0 n.
Proof.
  intros Hp.
  assert (S1 : forall e, window f (e + 1) n = window f e n).
  { intros e. pose proof (window_shift f e n) as H. rewrite <- (Hp (e + 1 - Z.of_nat n)%Z) in H.
    replace (e + 1 - Z.of_nat n + Z.of_nat n)%Z with (e + 1)%Z in H by lia. lia. }
  intros e. destruct (Z_le_gt_dec 0 e) as [H|H].
  - pattern e. apply natlike_ind; auto. intros x Hx IH. rewrite <- IH. apply S1.
  - replace e with (- Z.of_nat (Z.to_nat (- e)))%Z by lia. generalize (Z.to_nat (- e)). intros k.
    induction k as [|k IH]; [reflexivity|].
    rewrite <- IH. rewrite <- S1. f_equal. lia.
Qed.

Lemma land_pow2 k n : (0 <= k)%Z -> second_turn (2 ^ k) n = Z.testbit n k.
Proof.
  intros Hk. unfold second_turn.
  assert (E : Z.land (2 ^ k) n = if Z.testbit n k then (2 ^ k)%Z else 0%Z).
  { apply Z.bits_inj'. intros j Hj. rewrite Z.land_spec, Z.pow2_bits_eqb by auto.
    destruct (Z.eqb_spec k j) as [->|Hne].
    - destruct (Z.testbit n j) eqn:Et; simpl.
      + rewrite Z.pow2_bits_true by auto. reflexivity.
      + rewrite Z.bits_0. reflexivity.
    - simpl. destruct (Z.testbit n k).
      + rewrite Z.pow2_bits_false by auto. reflexivity.
      + rewrite Z.bits_0. reflexivity. }
  rewrite E. destruct (Z.testbit n k).
  - apply Z.ltb_lt. apply Z.pow_pos_nonneg; lia.
  - reflexivity.
Qed.

Definition bit_nat (k : nat) (z : Z) : nat := if Z.testbit z (Z.of_nat k) then 1%nat else 0%nat.

Lemma bit_period k z : bit_nat k (z + Z.of_nat (2 ^ S k)) = bit_nat k z.
Proof.
  unfold bit_nat. f_equal.
  rewrite Nat2Z.inj_pow. simpl Z.of_nat.
  rewrite !Z.testbit_odd. rewrite !Z.shiftr_div_pow2 by lia.
  replace (Z.pos (Pos.of_succ_nat k)) with (Z.of_nat k + 1)%Z by lia.
  rewrite Z.pow_add_r by lia. change (2 ^ 1)%Z with 2%Z.
  rewrite (Z.mul_comm (2 ^ Z.of_nat k) 2). rewrite Z.div_add by (apply Z.pow_nonzero; lia).
  rewrite Z.odd_add. change (Z.odd 2) with false. rewrite xorb_false_r. reflexivity.
Qed.

Lemma nsum_ones {A} (l : list A) : nsum (fun _ => 1%nat) l = length l.
Proof. induction l; simpl; auto. Qed.

(** Over [2^k] consecutive blocks the bit flips: the window of length [2^(k+1)] ending at [2^(k+1)-1]. *)
Lemma bit_count k : window (bit_nat k) (Z.of_nat (2 ^ S k) - 1) (2 ^ S k) = (2 ^ k)%nat.
Proof.
  unfold window.
  assert (ES : seq 0 (2 ^ S k) = seq 0 (2 ^ k + 2 ^ k)) by (f_equal; simpl; lia).
  rewrite ES.
  rewrite seq_app, nsum_app.
  assert (HP : (Z.of_nat (2 ^ k) = 2 ^ Z.of_nat k)%Z) by (rewrite Nat2Z.inj_pow; reflexivity).
  assert (H2 : Z.of_nat (2 ^ S k) = (2 * Z.of_nat (2 ^ k))%Z) by (rewrite Nat.pow_succ_r'; lia).
  rewrite (nsum_ext _ (fun _ => 1%nat)).
  - rewrite (nsum_zero _ (seq (0 + 2 ^ k) (2 ^ k))).
    + rewrite nsum_ones, seq_length. lia.
    + intros j Hj. apply in_seq in Hj. unfold bit_nat.
      replace (Z.testbit _ _) with false; auto. symmetry.
      rewrite Z.testbit_odd, Z.shiftr_div_pow2 by lia. rewrite <- HP, H2. rewrite Z.div_small by lia. reflexivity.
  - intros j Hj. apply in_seq in Hj. unfold bit_nat.
    replace (Z.testbit _ _) with true; auto. symmetry.
    rewrite Z.testbit_odd, Z.shiftr_div_pow2 by lia. rewrite <- HP, H2.
    replace (2 * Z.of_nat (2 ^ k) - 1 - Z.of_nat j)%Z
      with (1 * Z.of_nat (2 ^ k) + (Z.of_nat (2 ^ k) - 1 - Z.of_nat j))%Z by lia.
    rewrite Z.add_comm, Z.div_add by lia. rewrite Z.div_small by lia. reflexivity.
Qed.

Lemma bit_window k e : window (bit_nat k) e (2 ^ S k) = (2 ^ k)%nat.
Proof.
  rewrite (window_period _ _ (bit_period k)), <- (bit_count k). symmetry.
  apply (window_period _ _ (bit_period k)).
Qed.

Lemma count_map_bool (b : nat -> bool) (v0 v1 : Z) l : v0 <> v1 ->
  count_occ Z.eq_dec (map (fun j => if b j then v1 else v0) l) v1 = nsum (fun j => if b j then 1 else 0)%nat l.
Proof.
  intros Hne. induction l as [|j l IH]; simpl; auto.
  destruct (b j); destruct (Z.eq_dec _ v1); try congruence; rewrite IH; auto.
Qed.

Lemma count_map_bool0 (b : nat -> bool) (v0 v1 : Z) l : v0 <> v1 ->
  (count_occ Z.eq_dec (map (fun j => if b j then v1 else v0) l) v0 + nsum (fun j => if b j then 1 else 0)%nat l
  = length l)%nat.
Proof.
  intros Hne. induction l as [|j l IH]; simpl; auto.
  destruct (b j); destruct (Z.eq_dec _ v0); try congruence; simpl; lia.
Qed.

Lemma explore_balanced rng h p v0 v1 k :
  pm_values p = [v0; v1] -> v0 <> v1 ->
  forallb score_or_best h = true ->
  length (filter is_best h) = (2 ^ S k)%nat ->
  (Z.of_nat (2 ^ S k) <= pm_explore p)%Z ->
  pm_switch p = (2 ^ Z.of_nat k)%Z ->
  count_occ Z.eq_dec (returned (snd (tuner_run rng p h))) v0 = (2 ^ k)%nat
  /\ count_occ Z.eq_dec (returned (snd (tuner_run rng p h))) v1 = (2 ^ k)%nat.
Proof.
  intros Hv Hne Hh Hk He Hs.
  destruct (explore_schedule_aux rng h p v0 v1 Hv Hh) as [R _]; [lia|].
  rewrite R, Hk, Hs.
  assert (W : nsum (fun j => if second_turn (2 ^ Z.of_nat k) (pm_explore p - Z.of_nat j) then 1 else 0)%nat
                (seq 0 (2 ^ S k)) = (2 ^ k)%nat).
  { rewrite <- (bit_window k (pm_explore p)). unfold window. apply nsum_ext. intros j _.
    rewrite land_pow2 by lia. reflexivity. }
  split.
  - pose proof (count_map_bool0 (fun j => second_turn (2 ^ Z.of_nat k) (pm_explore p - Z.of_nat j)) v0 v1
                  (seq 0 (2 ^ S k)) Hne) as H.
    cbv beta in H. rewrite W, seq_length in H. pose proof (Nat.pow_succ_r' 2 k) as HP. lia.
  - rewrite count_map_bool by auto. exact W.
Qed.

Lemma final_map c f cr : Forall2 (score_ok c) f cr -> Forall2 Qeq f (map (final_score c) cr).
Proof. induction 1; simpl; constructor; auto. Qed.

(** Lemmas about BDRSubProblem: the model it builds is problem (2), re-pricing rebuilds it, and its integer points are clauses. *)
From Verif Require Import Base Lp LpProofs BdrModel SpecBdr BdrProofs BdrLpProofs BdrPricingProofs.
From Coq Require Import Sorted.
Open Scope nat_scope.
Local Arguments Nat.ltb _ _ : simpl never.
Local Arguments Nat.sub _ _ : simpl never.

Lemma for_each_seq_inv {St} (P : nat -> St -> Prop) k (g : nat -> St -> res St) s : P 0 s ->
  (forall i s, i < k -> P i s -> exists s', g i s = Ok s' /\ P (S i) s') ->
  exists s', for_each (seq 0 k) g s = Ok s' /\ P k s'.
Proof.
  intros H0 HS. assert (G : forall j, j <= k -> exists s', for_each (seq 0 j) g s = Ok s' /\ P j s').
  { induction j as [|j IH]; intros Hj; [exists s; auto|]. destruct IH as (s1 & E & H1); [lia|].
    destruct (HS j s1) as (s2 & E2 & H2); [lia|auto|]. exists s2. split; auto.
    rewrite seq_S, for_each_app, E. cbn [bind Nat.add for_each]. rewrite E2. reflexivity. }
  apply G. lia.
Qed.

Lemma map_nth_last {A} (f : A -> A) l a : map_nth f (l ++ [a]) (length l) = l ++ [f a].
Proof. replace (length l) with (length l + 0) by lia. rewrite map_nth_app_r. reflexivity. Qed.

Lemma combine_seq_S {A} (L : list A) i a : nth_error L i = Some a ->
  combine (seq 0 (S i)) L = combine (seq 0 i) L ++ [(i, a)].
Proof.
  intros H. assert (G : forall i s L, nth_error L i = Some a -> combine (seq s (S i)) L = combine (seq s i) L ++ [(s + i, a)]).
  { clear. induction i as [|i IH]; intros s [|b L] H; try discriminate.
    - simpl in H. injection H as ->. cbn. rewrite Nat.add_0_r. destruct L; reflexivity.
    - cbn [seq combine]. simpl in H. specialize (IH (S s) L H). cbn [seq combine] in IH. rewrite IH. cbn [app].
      replace (S s + i) with (s + S i) by lia. reflexivity. }
  specialize (G i 0 L H). cbn [Nat.add] in G. exact G.
Qed.

Lemma map_add_seq a k : map (fun i => a + i) (seq 0 k) = seq a k.
Proof.
  assert (G : forall s, map (fun i => a + i) (seq s k) = seq (a + s) k).
  { induction k as [|k IH]; intros s; cbn [seq map]; auto. f_equal. rewrite IH. f_equal. lia. }
  rewrite G. f_equal. lia.
Qed.

Definition ones (l : list nat) : nat := length (filter (fun t => t =? 1) l).

Lemma sample_costs_nth y : forall mu i t, ones y <= length mu -> nth_error y i = Some t ->
  nth i (sample_costs y mu) 0%Q = if t =? 1 then (- nth (ones (firstn i y)) mu 0)%Q else 1%Q.
Proof.
  unfold ones. induction y as [|a y IH]; intros mu i t HL H; [destruct i; discriminate|]. cbn [sample_costs filter] in *.
  destruct (a =? 1) eqn:Ea.
  - cbn [length] in HL. destruct mu as [|m mu]; [cbn in HL; lia|]. destruct i as [|i]; cbn [nth nth_error firstn filter] in *.
    + injection H as ->. rewrite Ea. reflexivity.
    + rewrite Ea. cbn [length nth]. apply IH; auto. cbn in HL. lia.
  - destruct i as [|i]; cbn [nth nth_error firstn filter] in *.
    + injection H as ->. rewrite Ea. reflexivity.
    + rewrite Ea. apply IH; auto.
Qed.

Lemma sample_costs_length y : forall mu, length (sample_costs y mu) = length y.
Proof. induction y as [|t y IH]; intros mu; auto. cbn [sample_costs]. destruct (t =? 1); [destruct mu|]; cbn; rewrite IH; auto. Qed.

Lemma firstn_S_nth {A} (l : list A) i a : nth_error l i = Some a -> firstn (S i) l = firstn i l ++ [a].
Proof.
  revert i; induction l as [|b l IH]; intros [|i] H; try discriminate; simpl in H.
  - injection H as ->. reflexivity.
  - cbn [firstn app]. rewrite <- IH; auto.
Qed.

Lemma ones_snoc l t : ones (l ++ [t]) = ones l + (if t =? 1 then 1 else 0).
Proof. unfold ones. rewrite filter_app, app_length. cbn. destruct (t =? 1); cbn; lia. Qed.

Lemma ones_firstn_lt y : forall i, nth_error y i = Some 1 -> ones (firstn i y) < ones y.
Proof.
  intros i H. rewrite <- (firstn_skipn i y) at 2. unfold ones. rewrite filter_app, app_length.
  assert (E : skipn i y = 1 :: skipn (S i) y).
  { revert i H. induction y as [|a y IH]; intros [|i] H; try discriminate; simpl in H.
    - injection H as ->. reflexivity.
    - cbn [skipn]. rewrite IH; auto. }
  rewrite E. cbn. lia.
Qed.

Definition bv : lpvar := mkVar (Some 0%Q) (Some 1%Q) true.

Definition frame (m m' : lp) : Prop :=
  lp_vars m' = lp_vars m /\ lp_obj m' = lp_obj m /\ lp_off m' = lp_off m /\ lp_max m' = lp_max m.
Lemma frame_refl m : frame m m.
Proof. repeat split. Qed.
Lemma frame_trans a b c : frame a b -> frame b c -> frame a c.
Proof. unfold frame. intros (A & B & C & D) (A' & B' & C' & D'). repeat split; congruence. Qed.

Lemma Forall2_app_con l l' m m' : Forall2 same_con l l' -> Forall2 same_con m m' -> Forall2 same_con (l ++ m) (l' ++ m').
Proof. apply Forall2_app. Qed.
Lemma same_cons_refl l : Forall2 same_con l l.
Proof. induction l; constructor; auto using same_con_refl. Qed.

Lemma increasing_NoDup k : increasing k -> NoDup k.
Proof. apply sorted_NoDup. lia. Qed.

Lemma accepts_In r k : accepts r k = true <-> forall j, In j k -> has r j = true.
Proof. unfold accepts. apply forallb_forall. Qed.

Lemma accepts_false r k : accepts r k = false -> exists j, In j k /\ has r j = false.
Proof.
  unfold accepts. induction k as [|j k IH]; cbn [forallb]; [discriminate|]. destruct (has r j) eqn:E; cbn.
  - intros H. destruct (IH H) as (j' & H1 & H2). exists j'. split; [right|]; auto.
  - intros _. exists j. split; [left|]; auto.
Qed.

Lemma filter_increasing (f : nat -> bool) s len : StronglySorted lt (filter f (seq s len)).
Proof.
  apply sorted_filter. revert s; induction len as [|len IH]; intros s; cbn; constructor; auto.
  apply Forall_forall. intros j Hj. apply in_seq in Hj. lia.
Qed.

Lemma increasing_ext k : forall k', increasing k -> increasing k' -> (forall j, In j k <-> In j k') -> k = k'.
Proof.
  induction k as [|a k IH]; intros [|b k'] H1 H2 HE; auto.
  - destruct (proj2 (HE b)); left; auto.
  - destruct (proj1 (HE a)); left; auto.
  - inversion H1 as [|? ? S1 F1]; inversion H2 as [|? ? S2 F2]; subst. rewrite Forall_forall in F1, F2.
    assert (Eab : a = b).
    { destruct (proj1 (HE a)) as [|Ha]; [left; auto|auto|]. destruct (proj2 (HE b)) as [|Hb]; [left; auto|auto|].
      specialize (F1 _ Hb). specialize (F2 _ Ha). lia. }
    subst b. f_equal. apply IH; auto. intros j. split; intros Hj.
    + destruct (proj1 (HE j)) as [<-|]; [right; auto|specialize (F1 _ Hj); lia|auto].
    + destruct (proj2 (HE j)) as [<-|]; [right; auto|specialize (F2 _ Hj); lia|auto].
Qed.

Lemma selected_increasing n x : increasing (selected n x).
Proof. apply filter_increasing. Qed.

Lemma selected_In n x j : In j (selected n x) <-> j < n /\ (0 < x j)%Q.
Proof. unfold selected. rewrite filter_In, in_seq, Qltb_true. intuition lia. Qed.

Lemma selected_over n x : clause_over n (selected n x).
Proof. apply Forall_forall. intros j Hj. apply selected_In in Hj. apply Hj. Qed.

Lemma zeros_In n r j : In j (zeros n r) <-> j < n /\ has r j = false.
Proof. unfold zeros. rewrite filter_In, in_seq, negb_true_iff. intuition lia. Qed.

Section Data.
Variables (n : nat) (X : matrix) (y : list nat).
Hypothesis HD : dataset n X y.
Notation np := (length (positives X y)).
Notation N := (length X).

Lemma ones_data : ones y = np.
Proof.
  rewrite <- (n_positive_data n X y HD). unfold ones. destruct HD as (_ & _ & _ & HY). clear HD. induction HY as [|t l Ht HF IH]; auto.
  cbn [filter]. destruct Ht as [-> | ->]; cbn [Nat.eqb]; [exact IH|]. change (0 <? 1) with true. cbn [length]. auto.
Qed.

Lemma sample i : i < N -> exists r t, nth_error X i = Some r /\ nth_error y i = Some t /\ length r = n /\ (t = 0 \/ t = 1)
  /\ nth_error (combine X y) i = Some (r, t).
Proof.
  intros Hi. pose proof (data_lengths n X y HD) as HL.
  destruct (nth_error_some_lt X i Hi) as (r & Hr). destruct (nth_error_some_lt y i) as (t & Ht); [lia|].
  exists r, t. assert (E : nth_error (combine X y) i = Some (r, t)).
  { clear - Hr Ht. revert y i Hr Ht. induction X as [|a l IH]; intros [|b m] [|i] Hr Ht; try discriminate; simpl in *.
    - congruence.
    - auto. }
  destruct (data_row n X y HD r t) as [H1 H2]; [eapply nth_error_In; eauto|]. auto.
Qed.

Lemma make_z_spec cc k : exists m, make_z cc k empty_lp = (m, seq 0 k)
  /\ lp_vars m = repeat bv k /\ (forall j, lp_obj m j = if j <? k then cc else 0%Q)
  /\ lp_off m = 0%Q /\ lp_max m = false /\ lp_cons m = [].
Proof.
  induction k as [|k IH].
  - exists empty_lp. repeat split.
  - destruct IH as (m & E & Hv & Ho & Hf & Hm & Hc). unfold make_z in *. rewrite seq_S, fold_left_app, E. cbn [fold_left new_var Nat.add].
    rewrite Hv, repeat_length. eexists. split; [reflexivity|]. cbn [set_obj lp_vars lp_obj lp_off lp_max lp_cons].
    split; [apply (repeat_snoc bv)|]. split; [|auto]. intros j. unfold upd. destruct (Nat.eqb_spec j k) as [->|Hj].
    + replace (k <? S k) with true by (symmetry; apply Nat.ltb_lt; lia). auto.
    + rewrite Ho. destruct (Nat.ltb_spec j k), (Nat.ltb_spec j (S k)); auto; lia.
Qed.

Lemma delta_coeff_ok cs i t : length cs = np -> nth_error y i = Some t -> (t = 0 \/ t = 1) ->
  exists q, delta_coeff cs t (ones (firstn i y)) = Ok (q, ones (firstn (S i) y)) /\ (q == nth i (sample_costs y cs) 0)%Q.
Proof.
  intros HL Ht Hb. rewrite (firstn_S_nth _ _ _ Ht), ones_snoc. rewrite (sample_costs_nth y cs i t) by (rewrite ?ones_data; auto; lia).
  unfold delta_coeff. destruct Hb as [-> | ->]; cbn [Nat.eqb].
  - eexists. split; [rewrite Nat.add_0_r; reflexivity|]. reflexivity.
  - pose proof (ones_firstn_lt y i Ht) as Hlt. rewrite ones_data in Hlt. rewrite <- HL in Hlt.
    destruct (nth_error_some_lt cs _ Hlt) as (d & Hd). unfold getitem. rewrite Hd. cbn [bind].
    eexists. split; [rewrite Nat.add_1_r; reflexivity|]. rewrite (nth_error_nth _ _ _ Hd). lra.
Qed.

Lemma make_delta_spec cs m : length cs = np -> lp_vars m = repeat bv n ->
  exists m' k, make_delta y cs N m = Ok (m', seq n N, k) /\ lp_vars m' = repeat bv (n + N)
   /\ (forall j, lp_obj m' j == if j <? n then lp_obj m j else if j <? n + N then nth (j - n) (sample_costs y cs) 0 else lp_obj m j)%Q
   /\ lp_off m' = lp_off m /\ lp_max m' = lp_max m /\ lp_cons m' = lp_cons m.
Proof.
  intros HL Hv. unfold make_delta.
  set (P := fun i (st : lp * list nat * nat) => let '(m', ds, k) := st in
     ds = seq n i /\ k = ones (firstn i y) /\ lp_vars m' = repeat bv (n + i)
     /\ (forall j, lp_obj m' j == if j <? n then lp_obj m j else if j <? n + i then nth (j - n) (sample_costs y cs) 0 else lp_obj m j)%Q
     /\ lp_off m' = lp_off m /\ lp_max m' = lp_max m /\ lp_cons m' = lp_cons m).
  match goal with |- context [for_each (seq 0 N) ?g ?s] => destruct (for_each_seq_inv P N g s) as ([[m' ds] k] & E & HP) end.
  - cbn. rewrite Nat.add_0_r. repeat split; auto. intros j. destruct (Nat.ltb_spec j n); reflexivity.
  - intros i [[m1 ds] k] Hi (-> & -> & Hv1 & Ho & Hf & Hm & Hc). destruct (sample i Hi) as (r & t & _ & Ht & _ & Hb & _).
    cbn [new_var]. unfold getitem. rewrite Ht. cbn [bind]. destruct (delta_coeff_ok cs i t HL Ht Hb) as (q & E & Eq). rewrite E. cbn [bind].
    rewrite Hv1, repeat_length. eexists. split; [reflexivity|]. cbn [P set_obj lp_vars lp_obj lp_off lp_max lp_cons].
    split; [rewrite seq_S; reflexivity|]. split; [reflexivity|]. split; [rewrite (repeat_snoc bv); f_equal; lia|]. split; [|auto].
    intros j. unfold upd. destruct (Nat.eqb_spec j (n + i)) as [->|Hj].
    + replace (n + i <? n) with false by (symmetry; apply Nat.ltb_ge; lia).
      replace (n + i <? n + S i) with true by (symmetry; apply Nat.ltb_lt; lia).
      replace (n + i - n) with i by lia. exact Eq.
    + rewrite Ho. destruct (Nat.ltb_spec j n); [reflexivity|].
      destruct (Nat.ltb_spec j (n + i)), (Nat.ltb_spec j (n + S i)); try reflexivity; lia.
  - destruct HP as (-> & _ & HP). exists m', k. split; [exact E|exact HP].
Qed.

(** The constraints of one sample. *)
Definition sample_cons (irt : nat * (list Q * nat)) : list lpcon :=
  let '(i, (r, t)) := irt in
  if t =? 1 then map (fun j => mkCon (Some 0%Q) (Some 1%Q)
                        (fun v => if (v =? n + i) || (v =? j) then 1%Q else 0%Q)) (zeros n r)
  else [mkCon (Some 1%Q) None (fun v => if (v =? n + i) || memb v (zeros n r) then 1%Q else 0%Q)].

Lemma entry_ok i j r : nth_error X i = Some r -> length r = n -> j < n ->
  exists e, entry X i j = Ok e /\ Qeq_bool e 0 = negb (has r j).
Proof.
  intros Hr Hl Hj. unfold entry, getitem. rewrite Hr. cbn [bind]. destruct (nth_error_some_lt r j) as (e & He); [lia|].
  rewrite He. exists e. split; auto. unfold has. rewrite He, negb_involutive. auto.
Qed.

Lemma zeros_S r j : filter (fun j => negb (has r j)) (seq 0 (S j))
  = filter (fun j => negb (has r j)) (seq 0 j) ++ (if has r j then [] else [j]).
Proof. rewrite seq_S, filter_app. cbn [filter Nat.add]. destruct (has r j); reflexivity. Qed.

Lemma positive_cons_spec i r d m : nth_error X i = Some r -> length r = n ->
  exists m', positive_cons X (seq 0 n) n i d m = Ok m' /\ frame m m'
    /\ Forall2 same_con (lp_cons m') (lp_cons m ++ map (fun j => mkCon (Some 0%Q) (Some 1%Q)
                        (fun v => if (v =? d) || (v =? j) then 1%Q else 0%Q)) (zeros n r)).
Proof.
  intros Hr Hl. unfold positive_cons.
  set (P := fun j m' => frame m m' /\ Forall2 same_con (lp_cons m') (lp_cons m ++ map (fun j => mkCon (Some 0%Q) (Some 1%Q)
                        (fun v => if (v =? d) || (v =? j) then 1%Q else 0%Q)) (filter (fun j => negb (has r j)) (seq 0 j)))).
  match goal with |- context [for_each (seq 0 n) ?g ?s] => destruct (for_each_seq_inv P n g s) as (m' & E & HP) end.
  - split; [apply frame_refl|]. cbn. rewrite app_nil_r. apply same_cons_refl.
  - intros j m1 Hj [HF HC]. destruct (entry_ok i j r Hr Hl Hj) as (e & E & Eb). rewrite E. cbn [bind]. rewrite Eb.
    unfold P. rewrite zeros_S. destruct (has r j); cbn [negb].
    + rewrite app_nil_r. eauto.
    + cbn [new_con]. rewrite getitem_seq by auto. cbn [bind Nat.add]. eexists. split; [reflexivity|]. split.
      * eapply frame_trans; [exact HF|]. repeat split.
      * unfold set_coef. cbn [lp_cons]. rewrite !map_nth_last. rewrite map_app, app_assoc. apply Forall2_app; auto.
        constructor; [|constructor]. split; [reflexivity|]. split; [reflexivity|]. cbn [c_coef]. intros v. unfold upd.
        destruct (v =? j), (v =? d); reflexivity.
  - exists m'. split; auto.
Qed.

Lemma memb_snoc v l j : memb v (l ++ [j]) = memb v l || (v =? j).
Proof. unfold memb. rewrite existsb_app. cbn. rewrite orb_false_r. reflexivity. Qed.

Lemma negative_con_spec i r d m : nth_error X i = Some r -> length r = n ->
  exists m', negative_con X (seq 0 n) n i d m = Ok m' /\ frame m m'
    /\ Forall2 same_con (lp_cons m') (lp_cons m ++ [mkCon (Some 1%Q) None (fun v => if (v =? d) || memb v (zeros n r) then 1%Q else 0%Q)]).
Proof.
  intros Hr Hl. unfold negative_con. cbn [new_con].
  set (P := fun j m' => frame m m' /\ exists g, lp_cons m' = lp_cons m ++ [mkCon (Some 1%Q) None g] /\
     forall v, g v = if (v =? d) || memb v (filter (fun j => negb (has r j)) (seq 0 j)) then 1%Q else 0%Q).
  match goal with |- context [for_each (seq 0 n) ?g ?s] => destruct (for_each_seq_inv P n g s) as (m' & E & HP) end.
  - split; [repeat split|]. unfold set_coef. cbn [lp_cons]. rewrite map_nth_last. eexists. split; [reflexivity|].
    intros v. unfold upd. cbn. destruct (v =? d); reflexivity.
  - intros j m1 Hj [HF (g & HC & Hg)]. destruct (entry_ok i j r Hr Hl Hj) as (e & E & Eb). rewrite E. cbn [bind]. rewrite Eb.
    unfold P. rewrite zeros_S. destruct (has r j); cbn [negb].
    + rewrite app_nil_r. eauto 6.
    + rewrite getitem_seq by auto. cbn [bind Nat.add]. eexists. split; [reflexivity|]. split.
      * eapply frame_trans; [exact HF|]. repeat split.
      * unfold set_coef. cbn [lp_cons]. rewrite HC, map_nth_last. eexists. split; [reflexivity|]. cbn [c_coef].
        intros v. unfold upd. rewrite Hg, memb_snoc. destruct (v =? j), (v =? d), (memb v _); reflexivity.
  - exists m'. split; auto. destruct HP as [HF (g & HC & Hg)]. split; auto. rewrite HC. apply Forall2_app; [apply same_cons_refl|].
    constructor; [|constructor]. split; [reflexivity|]. split; [reflexivity|]. cbn [c_coef]. intros v. rewrite Hg. reflexivity.
Qed.

Lemma Forall2_same_trans a b c : Forall2 same_con a b -> Forall2 same_con b c -> Forall2 same_con a c.
Proof.
  intros H; revert c; induction H as [|k k' l l' Hk H IH]; intros c Hc; inversion Hc; subst; constructor; eauto using same_con_trans.
Qed.

Lemma create_submip_ok D cc cs : length cs = np ->
  exists s, create_submip X y cc cs (submip_init D) = Ok s /\ bs_D s = D /\ bs_generated s = true
    /\ bs_z s = seq 0 n /\ bs_delta s = seq n N /\ same_lp (bs_lp s) (problem2 n X y D cc cs).
Proof.
  intros HL. unfold create_submip. cbn [bs_generated submip_init assert negb bind bs_lp bs_D]. rewrite (n_columns_data n X y HD).
  destruct (make_z_spec cc n) as (m1 & -> & Hv1 & Ho1 & Hf1 & Hm1 & Hc1).
  destruct (make_delta_spec cs m1 HL Hv1) as (m2 & k & -> & Hv2 & Ho2 & Hf2 & Hm2 & Hc2). cbn [bind].
  set (m3 := set_dir false (set_offset cc m2)).
  set (P := fun i m => frame m3 m /\ Forall2 same_con (lp_cons m) (flat_map sample_cons (combine (seq 0 i) (combine X y)))).
  match goal with |- context [for_each (seq 0 N) ?g m3] => destruct (for_each_seq_inv P N g m3) as (m4 & -> & HF4 & HC4) end.
  - split; [apply frame_refl|]. unfold m3, set_dir, set_offset. cbn [lp_cons]. rewrite Hc2, Hc1. constructor.
  - intros i m Hi [HF HC]. destruct (sample i Hi) as (r & t & Hr & Ht & Hl & Hb & Hrt).
    rewrite getitem_seq by auto. cbn [bind]. unfold getitem. rewrite Ht. cbn [bind]. unfold P.
    rewrite (combine_seq_S _ _ _ Hrt), flat_map_app. cbn [flat_map]. rewrite app_nil_r. cbn [sample_cons]. destruct (t =? 1).
    + destruct (positive_cons_spec i r (n + i) m Hr Hl) as (m' & E & F & C). exists m'. split; [exact E|].
      split; [eapply frame_trans; eauto|]. eapply Forall2_same_trans; [exact C|]. apply Forall2_app; auto using same_cons_refl.
    + destruct (negative_con_spec i r (n + i) m Hr Hl) as (m' & E & F & C). exists m'. split; [exact E|].
      split; [eapply frame_trans; eauto|]. eapply Forall2_same_trans; [exact C|]. apply Forall2_app; auto using same_cons_refl.
  - cbn [bind new_con].
    set (P' := fun j m => frame m3 m /\ exists g, lp_cons m = lp_cons m4 ++ [mkCon (Some 0%Q) (Some (inject_Z D)) g] /\
       forall v, g v = if v <? j then 1%Q else 0%Q).
    match goal with |- context [for_each (seq 0 n) ?g ?s] => destruct (for_each_seq_inv P' n g s) as (m6 & -> & HF6 & g6 & HC6 & Hg6) end.
    + split; [exact HF4|]. eexists. split; [reflexivity|]. intros v. reflexivity.
    + intros j m Hj [HF (g & HC & Hg)]. rewrite getitem_seq by auto. cbn [bind Nat.add]. eexists. split; [reflexivity|]. split.
      * eapply frame_trans; [exact HF|]. repeat split.
      * unfold set_coef. cbn [lp_cons]. rewrite HC, map_nth_last. eexists. split; [reflexivity|]. cbn [c_coef]. intros v. unfold upd.
        destruct (Nat.eqb_spec v j) as [->|Hv].
        -- replace (j <? S j) with true by (symmetry; apply Nat.ltb_lt; lia). reflexivity.
        -- rewrite Hg. destruct (Nat.ltb_spec v j), (Nat.ltb_spec v (S j)); auto; lia.
    + cbn [bind]. eexists. split; [reflexivity|]. cbn [bs_D bs_generated bs_z bs_delta bs_lp]. do 4 (split; [reflexivity|]).
      destruct HF6 as (Fv & Fo & Ff & Fm). split; [|split; [|split; [|split]]].
      * rewrite Fv. exact Hv2.
      * intros j. rewrite Fo. cbn [m3 set_dir set_offset lp_obj problem2]. rewrite Ho2, Ho1. destruct (Nat.ltb_spec j n); [reflexivity|].
        destruct (Nat.ltb_spec j (n + N)) as [H1|H1]; [reflexivity|]. rewrite nth_overflow; [reflexivity|].
        rewrite sample_costs_length, <- (data_lengths n X y HD). lia.
      * rewrite Ff. reflexivity.
      * rewrite Fm. reflexivity.
      * rewrite HC6. apply Forall2_app; [exact HC4|]. constructor; [|constructor]. split; [reflexivity|]. split; [reflexivity|].
        cbn [c_coef]. intros v. rewrite Hg6. reflexivity.
Qed.

(** States of the subproblem object between calls on this data set. *)
Definition sub_inv (D : Z) (s : submip) : Prop :=
  s = submip_init D \/
  (bs_D s = D /\ bs_generated s = true /\ bs_z s = seq 0 n /\ bs_delta s = seq n N
   /\ exists lam mu, length mu = np /\ same_lp (bs_lp s) (problem2 n X y D lam mu)).

Lemma update_objective_ok D cc cs s : length cs = np -> bs_D s = D -> bs_generated s = true -> bs_z s = seq 0 n ->
  bs_delta s = seq n N -> (exists lam mu, length mu = np /\ same_lp (bs_lp s) (problem2 n X y D lam mu)) ->
  exists s', update_objective X y cc cs s = Ok s' /\ bs_D s' = D /\ bs_generated s' = true
    /\ bs_z s' = seq 0 n /\ bs_delta s' = seq n N /\ same_lp (bs_lp s') (problem2 n X y D cc cs).
Proof.
  intros HL HDD HG HZ HDel (lam & mu & HLm & SV & SO & SF & SM & SC). unfold update_objective. rewrite HG. cbn [assert bind].
  rewrite (n_columns_data n X y HD), HZ, HDel.
  set (P := fun i m => lp_vars m = lp_vars (bs_lp s) /\ lp_cons m = lp_cons (bs_lp s) /\
     forall j, lp_obj m j = if j <? i then cc else lp_obj (bs_lp s) j).
  match goal with |- context [for_each (seq 0 n) ?g ?m] => destruct (for_each_seq_inv P n g m) as (m1 & -> & Hv1 & Hc1 & Ho1) end.
  - repeat split.
  - intros i m Hi (Hv & Hc & Ho). rewrite getitem_seq by auto. cbn [bind Nat.add]. eexists. split; [reflexivity|].
    split; [exact Hv|]. split; [exact Hc|]. intros j. cbn [set_obj lp_obj]. unfold upd. destruct (Nat.eqb_spec j i) as [->|Hj].
    + replace (i <? S i) with true by (symmetry; apply Nat.ltb_lt; lia). reflexivity.
    + rewrite Ho. destruct (Nat.ltb_spec j i), (Nat.ltb_spec j (S i)); auto; lia.
  - cbn [bind].
    set (P' := fun i (st : lp * nat) => let '(m, k) := st in k = ones (firstn i y) /\ lp_vars m = lp_vars (bs_lp s) /\ lp_cons m = lp_cons (bs_lp s) /\
       forall j, (lp_obj m j == if j <? n then cc else if j <? n + i then nth (j - n) (sample_costs y cs) 0 else lp_obj (bs_lp s) j)%Q).
    match goal with |- context [for_each (seq 0 N) ?g ?m] => destruct (for_each_seq_inv P' N g m) as ([m2 k] & -> & Hk & Hv2 & Hc2 & Ho2) end.
    + split; [reflexivity|]. split; [exact Hv1|]. split; [exact Hc1|]. intros j. rewrite Ho1. destruct (Nat.ltb_spec j n); [reflexivity|].
      rewrite Nat.add_0_r. destruct (Nat.ltb_spec j n); [lia|reflexivity].
    + intros i [m k] Hi (-> & Hv & Hc & Ho). destruct (sample i Hi) as (r & t & _ & Ht & _ & Hb & _).
      unfold getitem at 1. rewrite Ht. cbn [bind]. destruct (delta_coeff_ok cs i t HL Ht Hb) as (q & E & Eq). rewrite E. cbn [bind].
      rewrite getitem_seq by auto. cbn [bind]. eexists. split; [reflexivity|]. split; [reflexivity|]. split; [exact Hv|]. split; [exact Hc|].
      intros j. cbn [set_obj lp_obj]. unfold upd. destruct (Nat.eqb_spec j (n + i)) as [->|Hj].
      * replace (n + i <? n) with false by (symmetry; apply Nat.ltb_ge; lia).
        replace (n + i <? n + S i) with true by (symmetry; apply Nat.ltb_lt; lia).
        replace (n + i - n) with i by lia. exact Eq.
      * rewrite Ho. destruct (Nat.ltb_spec j n); [reflexivity|].
        destruct (Nat.ltb_spec j (n + i)), (Nat.ltb_spec j (n + S i)); try reflexivity; lia.
    + cbn [bind]. eexists. split; [reflexivity|]. cbn [bs_D bs_generated bs_z bs_delta bs_lp]. split; [exact HDD|].
      do 3 (split; [reflexivity || assumption|]). unfold same_lp, set_dir, set_offset. cbn [lp_vars lp_obj lp_off lp_max lp_cons].
      split; [rewrite Hv2; exact SV|]. split.
      * intros j. rewrite Ho2. cbn [problem2 lp_obj]. destruct (Nat.ltb_spec j n); [reflexivity|].
        destruct (Nat.ltb_spec j (n + N)) as [H1|H1]; [reflexivity|]. rewrite SO. cbn [problem2 lp_obj].
        destruct (Nat.ltb_spec j n); [lia|].
        rewrite !nth_overflow; [reflexivity| |]; rewrite sample_costs_length, <- (data_lengths n X y HD); lia.
      * split; [reflexivity|]. split; [reflexivity|]. rewrite Hc2. exact SC.
Qed.

(** * Meaning of problem (2) *)

Section Meaning.
Variables (D : Z) (lam : Q) (mu : list Q).
Hypothesis Hmu : length mu = np.
Notation P2 := (problem2 n X y D lam mu).

Lemma p2_num_vars : num_vars P2 = n + N.
Proof. unfold num_vars. cbn [problem2 lp_vars]. apply repeat_length. Qed.

Lemma p2_var j : j < n + N -> nth_error (lp_vars P2) j = Some bv.
Proof. intros H. cbn [problem2 lp_vars]. apply nth_error_repeat. auto. Qed.

Definition cost (i : nat) : Q := nth i (sample_costs y mu) 0%Q.

Lemma p2_objective x : (objective_value P2 x
  == lam * (1 + qsum x (seq 0 n)) + qsum (fun i => cost i * x (n + i)%nat) (seq 0 N))%Q.
Proof.
  unfold objective_value. rewrite p2_num_vars. cbn [problem2 lp_obj lp_off]. unfold linear.
  rewrite seq_app, qsum_app. cbn [Nat.add].
  rewrite (qsum_ext _ (fun j => lam * x j)%Q (seq 0 n)).
  2:{ intros j Hj. apply in_seq in Hj. destruct (Nat.ltb_spec j n); [reflexivity|lia]. }
  rewrite qsum_scale.
  assert (E : (qsum (fun j => (if j <? n then lam else nth (j - n) (sample_costs y mu) 0) * x j) (seq n N)
            == qsum (fun i => cost i * x (n + i)%nat) (seq 0 N))%Q).
  { replace (seq n N) with (map (fun i => n + i) (seq 0 N)).
    - rewrite qsum_map. apply qsum_ext. intros i _. destruct (Nat.ltb_spec (n + i) n); [lia|].
      replace (n + i - n) with i by lia. reflexivity.
    - apply map_add_seq. }
  rewrite E. lra.
Qed.

Lemma cost_sum (f : list Q -> Q) :
  (qsum (fun i => cost i * f (nth i X [])) (seq 0 N)
   == qsum f (negatives X y) - qsum (fun rm => f (fst rm) * snd rm) (combine (positives X y) mu))%Q.
Proof.
  unfold cost. pose proof (data_lengths n X y HD) as HL. destruct HD as (_ & _ & _ & HY). revert HL Hmu HY.
  unfold positives, negatives. clear HD. revert y mu. induction X as [|r l IH]; intros [|t m] mu0 HL Hm HY; try discriminate.
  - cbn. lra.
  - cbn [length seq combine filter snd]. rewrite qsum_cons, <- seq_shift, qsum_map. cbn [nth].
    inversion HY as [|? ? Ht HY']; subst. cbn [combine filter snd] in Hm. injection HL as HL. destruct Ht as [-> | ->]; cbn [Nat.eqb] in *; cbn [sample_costs map fst Nat.eqb nth].
    + rewrite (IH m mu0 HL Hm HY'). rewrite qsum_cons. lra.
    + destruct mu0 as [|a mu0]; [discriminate|]. cbn [nth combine]. cbn [map length] in Hm. rewrite (IH m mu0 HL ltac:(lia) HY'). rewrite qsum_cons. cbn [fst snd]. lra.
Qed.

Definition ind (k : clause) (r : list Q) : Q := if accepts r k then 1%Q else 0%Q.

Lemma clause_cost_samples k : (clause_cost X y lam mu k
  == lam * qn (complexity k) + qsum (fun i => cost i * ind k (nth i X [])) (seq 0 N))%Q.
Proof.
  rewrite (cost_sum (ind k)). unfold clause_cost, false_positives. unfold qn at 2. rewrite nsum_filter_length, inject_nsum.
  assert (E1 : (qsum (fun a => inject_Z (Z.of_nat (if accepts a k then 1 else 0))) (negatives X y) == qsum (ind k) (negatives X y))%Q).
  { apply qsum_ext. intros a _. unfold ind. destruct (accepts a k); reflexivity. }
  assert (E2 : (qsum (fun rm => if accepts (fst rm) k then snd rm else 0) (combine (positives X y) mu)
     == qsum (fun rm => ind k (fst rm) * snd rm) (combine (positives X y) mu))%Q).
  { apply qsum_ext. intros a _. unfold ind. destruct (accepts _ k); lra. }
  lra.
Qed.

Lemma cost_value i : i < N -> exists r t, nth i X [] = r /\ nth_error X i = Some r /\ length r = n /\ nth_error (combine X y) i = Some (r, t) /\
  ((t = 0 /\ cost i = 1%Q) \/ (t = 1 /\ exists m, In m mu /\ cost i = (- m)%Q)).
Proof.
  intros Hi. destruct (sample i Hi) as (r & t & Hr & Ht & Hl & Hb & Hrt). exists r, t.
  split; [apply (nth_error_nth _ _ _ Hr)|]. do 3 (split; auto). unfold cost.
  rewrite (sample_costs_nth y mu i t) by (auto; rewrite ones_data; lia). destruct Hb as [-> | ->]; cbn [Nat.eqb]; [left; auto|].
  right. split; auto. pose proof (ones_firstn_lt y i Ht) as HO. rewrite ones_data in HO. rewrite <- Hmu in HO.
  exists (nth (ones (firstn i y)) mu 0%Q). split; auto. apply nth_In. auto.
Qed.

Lemma p2_con_in k : In k (lp_cons P2) <->
  (exists i r t, nth_error (combine X y) i = Some (r, t) /\ In k (sample_cons (i, (r, t))))
  \/ k = mkCon (Some 0%Q) (Some (inject_Z D)) (fun v => if v <? n then 1%Q else 0%Q).
Proof.
  cbn [problem2 lp_cons]. rewrite in_app_iff. fold sample_cons. split.
  - intros [H|[H|[]]]; auto. left. apply in_flat_map in H. destruct H as ([i [r t]] & H1 & H2). exists i, r, t. split; auto.
    assert (LC : length (combine X y) = N) by (rewrite combine_length, <- (data_lengths n X y HD); lia).
    rewrite <- LC in H1. apply in_combine_seq in H1. destruct H1 as [_ H1]. rewrite Nat.sub_0_r in H1. auto.
  - intros [(i & r & t & H1 & H2)| ->]; [left|right; left; auto]. apply in_flat_map. exists (i, (r, t)). split; auto.
    assert (LC : length (combine X y) = N) by (rewrite combine_length, <- (data_lengths n X y HD); lia).
    rewrite <- LC. apply nth_error_In with i. rewrite nth_error_combine_seq, H1. reflexivity.
Qed.

Lemma linear_pair x a b : a <> b -> a < n + N -> b < n + N ->
  (linear (n + N) (fun v => if (v =? a) || (v =? b) then 1 else 0) x == x a + x b)%Q.
Proof.
  intros Hab Ha Hb. rewrite <- (qsum_single x a (n + N) 0) by lia. rewrite <- (qsum_single x b (n + N) 0) by lia.
  rewrite <- qsum_plus. unfold linear. apply qsum_ext. intros v _. destruct (Nat.eqb_spec v a), (Nat.eqb_spec v b); subst; cbn [orb]; try lra. congruence.
Qed.

Lemma linear_first x : (linear (n + N) (fun v => if v <? n then 1 else 0) x == qsum x (seq 0 n))%Q.
Proof.
  unfold linear. rewrite seq_app, qsum_app. rewrite (qsum_ext _ x (seq 0 n)).
  2:{ intros j Hj. apply in_seq in Hj. destruct (Nat.ltb_spec j n); [lra|lia]. }
  rewrite (qsum_zero _ (seq (0 + n) N)); [lra|]. intros j Hj. apply in_seq in Hj. destruct (Nat.ltb_spec j n); [lia|lra].
Qed.

Lemma linear_cover x i r : i < N ->
  (linear (n + N) (fun v => if (v =? n + i) || memb v (zeros n r) then 1 else 0) x == x (n + i)%nat + qsum x (zeros n r))%Q.
Proof.
  intros Hi. unfold zeros at 2. rewrite qsum_filter. rewrite <- (qsum_single x (n + i) (n + N) 0) by lia.
  assert (E : (qsum (fun a => if negb (has r a) then x a else 0) (seq 0 n)
     == qsum (fun v => (if memb v (zeros n r) then 1 else 0) * x v) (seq 0 (n + N)))%Q).
  { rewrite seq_app, qsum_app. rewrite (qsum_zero _ (seq (0 + n) N)).
    - rewrite Qplus_0_r. apply qsum_ext. intros j Hj. apply in_seq in Hj.
      destruct (memb j (zeros n r)) eqn:Em.
      + apply memb_In, zeros_In in Em. destruct Em as [_ ->]. cbn. lra.
      + apply memb_false in Em. rewrite zeros_In in Em. destruct (has r j); cbn; [lra|]. exfalso. apply Em. split; [lia|auto].
    - intros j Hj. apply in_seq in Hj. destruct (memb j (zeros n r)) eqn:Em; [|lra]. apply memb_In, zeros_In in Em. lia. }
  rewrite E, <- qsum_plus. unfold linear. apply qsum_ext. intros v _.
  destruct (Nat.eqb_spec v (n + i)) as [->|Hv]; cbn [orb]; [|lra].
  destruct (memb (n + i) (zeros n r)) eqn:Em; [apply memb_In, zeros_In in Em; lia|lra].
Qed.

(** The point that describes a clause exactly. *)
Definition clause_point (k : clause) (v : nat) : Q :=
  if v <? n then (if memb v k then 1%Q else 0%Q) else ind k (nth (v - n) X []).

Lemma clause_point_sum k : NoDup k -> clause_over n k -> (qsum (clause_point k) (seq 0 n) == qn (length k))%Q.
Proof.
  intros HN HO. rewrite (qsum_ext _ (fun v => if memb v k then 1%Q else 0%Q)).
  2:{ intros j Hj. apply in_seq in Hj. unfold clause_point. destruct (Nat.ltb_spec j n); [reflexivity|lia]. }
  rewrite <- (qsum_filter (fun _ => 1%Q) (fun v => memb v k)).
  rewrite (qsum_perm _ _ k).
  - rewrite qsum_const. unfold qn. lra.
  - apply NoDup_Permutation; auto; [apply NoDup_filter, seq_NoDup|]. intros j. rewrite filter_In, memb_In, in_seq.
    unfold clause_over in HO. rewrite Forall_forall in HO. split; [tauto|]. intros H. specialize (HO j H). split; [lia|auto].
Qed.

Lemma ind_01 k r : (ind k r == 0 \/ ind k r == 1)%Q.
Proof. unfold ind. destruct (accepts r k); [right|left]; reflexivity. Qed.

Lemma clause_point_01 k v : (clause_point k v == 0 \/ clause_point k v == 1)%Q.
Proof. unfold clause_point. destruct (v <? n); [destruct (memb v k); [right|left]; reflexivity|apply ind_01]. Qed.

Lemma clause_point_feasible k : increasing k -> clause_over n k -> (Z.of_nat (length k) <= D)%Z -> ip_feasible P2 (clause_point k).
Proof.
  intros HI HO HL. split; [split|].
  - intros j v Hv. assert (Hj : j < n + N) by (rewrite <- p2_num_vars; apply nth_error_Some; congruence).
    rewrite (p2_var j Hj) in Hv. injection Hv as <-. cbn [v_lb v_ub bv]. destruct (clause_point_01 k j); split; intros b Hb; injection Hb as <-; lra.
  - intros c kc Hc. apply nth_error_In, p2_con_in in Hc. unfold activity. rewrite p2_num_vars. destruct Hc as [(i & r & t & Hi & Hc)| ->].
    + assert (HiN : i < N). { assert (Hi2 : nth_error (combine X y) i <> None) by congruence; apply nth_error_Some in Hi2; clear Hi; rename Hi2 into Hi. rewrite combine_length in Hi. lia. }
      destruct (sample i HiN) as (r' & t' & Hr & _ & Hl & Hb & Hrt). rewrite Hi in Hrt. injection Hrt as -> ->.
      assert (Ei : clause_point k (n + i) = ind k r').
      { unfold clause_point. destruct (Nat.ltb_spec (n + i) n); [lia|]. replace (n + i - n) with i by lia. rewrite (nth_error_nth _ _ _ Hr). auto. }
      cbn [sample_cons] in Hc. destruct (t' =? 1).
      * apply in_map_iff in Hc. destruct Hc as (j & <- & Hj). apply zeros_In in Hj. destruct Hj as [Hj Hh]. cbn [c_coef c_lb c_ub].
        assert (E : (linear (n + N) (fun v => if (v =? n + i) || (v =? j) then 1 else 0) (clause_point k) == clause_point k (n + i) + clause_point k j)%Q)
          by (apply linear_pair; lia).
        rewrite Ei in E. unfold clause_point at 2 in E. destruct (Nat.ltb_spec j n); [|lia].
        assert (G : (0 <= ind k r' + (if memb j k then 1 else 0) <= 1)%Q).
        { destruct (memb j k) eqn:Em.
          - assert (Ea : accepts r' k = false). { destruct (accepts r' k) eqn:Ea; auto. rewrite accepts_In in Ea. apply memb_In in Em. rewrite (Ea j Em) in Hh. discriminate. }
            unfold ind. rewrite Ea. lra.
          - destruct (ind_01 k r'); lra. }
        split; intros b Hbb; injection Hbb as <-; lra.
      * destruct Hc as [<-|[]]. cbn [c_coef c_lb c_ub]. split; intros b Hbb; [injection Hbb as <-|discriminate].
        rewrite linear_cover by auto. rewrite Ei. unfold ind. destruct (accepts r' k) eqn:Ea.
        -- assert (0 <= qsum (clause_point k) (zeros n r'))%Q by (apply qsum_nonneg; intros v _; destruct (clause_point_01 k v); lra). lra.
        -- apply accepts_false in Ea. destruct Ea as (j & Hj & Hh).
           assert (Hjn : j < n) by (unfold clause_over in HO; rewrite Forall_forall in HO; auto).
           assert (Hz : In j (zeros n r')) by (apply zeros_In; auto).
           apply in_split in Hz. destruct Hz as (l1 & l2 & ->). rewrite qsum_app, qsum_cons.
           assert (E1 : clause_point k j = 1%Q). { unfold clause_point. destruct (Nat.ltb_spec j n); [|lia]. apply memb_In in Hj. rewrite Hj. auto. }
           assert (0 <= qsum (clause_point k) l1)%Q by (apply qsum_nonneg; intros v _; destruct (clause_point_01 k v); lra).
           assert (0 <= qsum (clause_point k) l2)%Q by (apply qsum_nonneg; intros v _; destruct (clause_point_01 k v); lra).
           rewrite E1. lra.
    + cbn [c_coef c_lb c_ub]. assert (E : (linear (n + N) (fun v => if v <? n then 1 else 0) (clause_point k) == qn (length k))%Q).
      { rewrite linear_first. apply clause_point_sum; auto using increasing_NoDup. }
      assert (0 <= qn (length k) <= inject_Z D)%Q. { unfold qn. split; [apply inject_nat_nonneg|]. rewrite <- Zle_Qle. auto. }
      split; intros b Hb; injection Hb as <-; lra.
  - intros j v Hv _. destruct (clause_point_01 k j) as [E|E]; [exists 0%Z|exists 1%Z]; rewrite E; reflexivity.
Qed.

Lemma clause_point_objective k : increasing k -> clause_over n k -> (objective_value P2 (clause_point k) == clause_cost X y lam mu k)%Q.
Proof.
  intros HI HO. rewrite p2_objective, clause_cost_samples, clause_point_sum by auto using increasing_NoDup.
  assert (E : (qsum (fun i => cost i * clause_point k (n + i)) (seq 0 N) == qsum (fun i => cost i * ind k (nth i X [])) (seq 0 N))%Q).
  { apply qsum_ext. intros i _. unfold clause_point. destruct (Nat.ltb_spec (n + i) n); [lia|]. replace (n + i - n) with i by lia. reflexivity. }
  rewrite E. unfold complexity, qn. rewrite inject_nat_plus. change (inject_Z (Z.of_nat 1)) with 1%Q. lra.
Qed.

Lemma selected_clause_point k : increasing k -> clause_over n k -> selected n (clause_point k) = k.
Proof.
  intros HI HO. apply increasing_ext; auto using selected_increasing. intros j. rewrite selected_In. unfold clause_point.
  unfold clause_over in HO. rewrite Forall_forall in HO. split.
  - intros [Hj H]. destruct (Nat.ltb_spec j n); [|lia]. destruct (memb j k) eqn:E; [apply memb_In; auto|lra].
  - intros H. specialize (HO j H). split; auto. destruct (Nat.ltb_spec j n); [|lia]. apply memb_In in H. rewrite H. lra.
Qed.

Lemma feasible_01 x j : ip_feasible P2 x -> j < n + N -> (x j == 0 \/ x j == 1)%Q.
Proof.
  intros [[FV _] FI] Hj. pose proof (p2_var j Hj) as Hv. destruct (FV _ _ Hv) as [H0 H1]. destruct (FI _ _ Hv eq_refl) as (z & Hz).
  specialize (H0 _ eq_refl). specialize (H1 _ eq_refl). rewrite Hz in H0, H1. change 0%Q with (inject_Z 0) in H0. change 1%Q with (inject_Z 1) in H1.
  rewrite <- Zle_Qle in H0, H1. assert (z = 0 \/ z = 1)%Z as [-> | ->] by lia; [left|right]; exact Hz.
Qed.

Lemma selected_sum x : ip_feasible P2 x -> (qsum x (seq 0 n) == qn (length (selected n x)))%Q.
Proof.
  intros F. unfold selected, qn. rewrite nsum_filter_length, inject_nsum. apply qsum_ext. intros j Hj. apply in_seq in Hj.
  destruct (feasible_01 x j F) as [E|E]; [lia| |]; destruct (Qltb 0 (x j)) eqn:EQ; rewrite E.
  - apply Qltb_true in EQ. lra.
  - reflexivity.
  - reflexivity.
  - apply Qltb_false in EQ. lra.
Qed.

Lemma selected_length x : ip_feasible P2 x -> (Z.of_nat (length (selected n x)) <= D)%Z.
Proof.
  intros F. pose proof (selected_sum x F) as E. destruct F as [[_ FC] _].
  assert (Hk : In (mkCon (Some 0%Q) (Some (inject_Z D)) (fun v => if v <? n then 1%Q else 0%Q)) (lp_cons P2)) by (apply p2_con_in; auto).
  apply In_nth_error in Hk. destruct Hk as (c & Hc). specialize (FC _ _ Hc). destruct FC as [_ FC]. specialize (FC _ eq_refl).
  unfold activity in FC. rewrite p2_num_vars in FC. cbn [c_coef] in FC. rewrite linear_first in FC. rewrite E in FC.
  unfold qn in FC. rewrite <- Zle_Qle in FC. auto.
Qed.

Lemma feasible_lower x : Forall (fun m => 0 <= m)%Q mu -> ip_feasible P2 x ->
  (clause_cost X y lam mu (selected n x) <= objective_value P2 x)%Q.
Proof.
  intros Hnn F. rewrite p2_objective, clause_cost_samples, (selected_sum x F).
  assert (G : (qsum (fun i => cost i * ind (selected n x) (nth i X [])) (seq 0 N) <= qsum (fun i => cost i * x (n + i)%nat) (seq 0 N))%Q).
  { apply qsum_le. intros i Hi. apply in_seq in Hi. destruct (cost_value i) as (r & t & Er & Hr & Hl & Hrt & HC); [lia|]. rewrite Er.
    assert (HX : (x (n + i)%nat == 0 \/ x (n + i)%nat == 1)%Q) by (apply feasible_01; auto; lia).
    destruct HC as [[-> HC]|[-> (m & Hm & HC)]]; rewrite HC.
    - destruct (accepts r (selected n x)) eqn:Ea; unfold ind; rewrite Ea; [|destruct HX; lra].
      assert (Hk : In (mkCon (Some 1%Q) None (fun v => if (v =? n + i) || memb v (zeros n r) then 1%Q else 0%Q)) (lp_cons P2)).
      { apply p2_con_in. left. exists i, r, 0. split; auto. left; auto. }
      apply In_nth_error in Hk. destruct Hk as (c & Hc). pose proof F as [[_ FC] _]. specialize (FC _ _ Hc). destruct FC as [FC _]. specialize (FC _ eq_refl).
      unfold activity in FC. rewrite p2_num_vars in FC. cbn [c_coef] in FC. rewrite linear_cover in FC by lia.
      rewrite (qsum_zero x (zeros n r)) in FC; [lra|]. intros j Hj. apply zeros_In in Hj. destruct Hj as [Hj Hh].
      destruct (feasible_01 x j F) as [E|E]; [lia|exact E|]. exfalso. rewrite accepts_In in Ea. rewrite Ea in Hh; [discriminate|].
      apply selected_In. split; auto. rewrite E. lra.
    - rewrite Forall_forall in Hnn. specialize (Hnn m Hm). destruct (accepts r (selected n x)) eqn:Ea; unfold ind; rewrite Ea.
      + destruct HX as [E|E]; rewrite E; lra.
      + apply accepts_false in Ea. destruct Ea as (j & Hj & Hh). apply selected_In in Hj. destruct Hj as [Hj Hx].
        assert (Hk : In (mkCon (Some 0%Q) (Some 1%Q) (fun v => if (v =? n + i) || (v =? j) then 1%Q else 0%Q)) (lp_cons P2)).
        { apply p2_con_in. left. exists i, r, 1. split; auto. cbn [sample_cons Nat.eqb]. apply in_map_iff. exists j. split; auto. apply zeros_In; auto. }
        apply In_nth_error in Hk. destruct Hk as (c & Hc). pose proof F as [[_ FC] _]. specialize (FC _ _ Hc). destruct FC as [_ FC]. specialize (FC _ eq_refl).
        unfold activity in FC. rewrite p2_num_vars in FC. cbn [c_coef] in FC. rewrite linear_pair in FC by lia.
        destruct (feasible_01 x j F) as [E|E]; [lia|lra|]. destruct HX as [E'|E']; [rewrite E'; lra|]. lra. }
  unfold complexity, qn. rewrite inject_nat_plus. change (inject_Z (Z.of_nat 1)) with 1%Q. lra.
Qed.
End Meaning.

(** * generate_columns *)

Lemma decode_ok (x : nat -> Q) :
  for_each (seq 0 (length (seq 0 n))) (fun i c => let* z := getitem (seq 0 n) i in Ok (if Qltb 0 (x z) then c ++ [i] else c)) [] = Ok (selected n x).
Proof.
  rewrite seq_length. set (P := fun i c => c = filter (fun j => Qltb 0 (x j)) (seq 0 i)).
  match goal with |- context [for_each (seq 0 n) ?g ?s] => destruct (for_each_seq_inv P n g s) as (c & -> & ->) end; auto.
  - reflexivity.
  - intros i c Hi ->. rewrite getitem_seq by auto. cbn [bind Nat.add]. eexists. split; [reflexivity|]. unfold P.
    rewrite seq_S, filter_app. cbn [filter Nat.add]. destruct (Qltb 0 (x i)); auto. rewrite app_nil_r. auto.
Qed.

Lemma sub_generate_ok D cc cs s solver : sub_inv D s -> (0 <= cc)%Q -> Forall (fun d => 0 <= d)%Q cs -> length cs = np ->
  exists s1, sub_inv D s1 /\ bs_generated s1 = true /\ bs_D s1 = D /\ same_lp (bs_lp s1) (problem2 n X y D cc cs) /\
   sub_generate_columns solver X y (cc, cs) s =
     match solver (bs_lp s1) with
     | None => Err AssertionError
     | Some x => if Qle_bool (- eps) (objective_value (bs_lp s1) x) then Ok ([], s1) else Ok ([selected n x], s1)
     end.
Proof.
  intros HI Hc Hcs HL. unfold sub_generate_columns. cbn [fst snd]. rewrite check_duals_ok by auto. cbn [bind].
  assert (G : exists s1, (if bs_generated s then update_objective X y cc cs s else create_submip X y cc cs s) = Ok s1
     /\ bs_D s1 = D /\ bs_generated s1 = true /\ bs_z s1 = seq 0 n /\ bs_delta s1 = seq n N /\ same_lp (bs_lp s1) (problem2 n X y D cc cs)).
  { destruct HI as [-> | (H1 & H2 & H3 & H4 & H5)].
    - apply create_submip_ok; auto.
    - rewrite H2. apply update_objective_ok; auto. }
  destruct G as (s1 & E & H1 & H2 & H3 & H4 & H5). rewrite E. cbn [bind]. exists s1. split.
  - right. repeat (split; auto). exists cc, cs. auto.
  - repeat (split; [assumption|]). destruct (solver (bs_lp s1)) as [x|]; auto. destruct (Qle_bool _ _); auto.
    rewrite H3, decode_ok. reflexivity.
Qed.
End Data.

(** Integral points of a pricing model are paths, with the right objective value. *)
From Verif Require Import Base Lp LpProofs TreeModel SpecTree SpecTreeRun SpecTreeLp SpecTreePrice TreePricingModel TreeGeoProofs
  TreePathProofs TreeLpBuild TreeBuildProofs TreeInvProofs TreeOpProofs TreeMasterProofs TreeSolProofs TreePriceProofs TreeHeurProofs TreeSymProofs
  TreeSubmipProofs.
Open Scope nat_scope.

Definition ind (b : bool) : Q := if b then 1%Q else 0%Q.
Lemma zero_one_range q : zero_one q -> (0 <= q <= 1)%Q.
Proof. intros [H|H]; rewrite H; lra. Qed.
Lemma zero_one_ind q b : zero_one q -> ((1 <= q)%Q <-> b = true) -> (q == ind b)%Q.
Proof.
  intros [H|H] E; rewrite H in *; destruct b; cbn [ind]; try reflexivity.
  - destruct E as [_ E]. specialize (E eq_refl). lra.
  - destruct E as [E _]. discriminate E. lra.
Qed.

(** Numbers 0 or 1 with sum 1. *)
Lemma one_hot (f : nat -> Q) ks : NoDup ks -> (forall k, In k ks -> zero_one (f k)) -> (qsum f ks == 1)%Q ->
  exists k, In k ks /\ forall k', In k' ks -> (f k' == ind (k' =? k))%Q.
Proof.
  induction ks as [|k ks IH]; intros Hn Hz Hs; [cbn in Hs; lra|]. rewrite qsum_cons in Hs. inversion Hn; subst.
  assert (H0 : forall k', In k' ks -> (0 <= f k')%Q) by (intros k' H; apply (zero_one_range (f k')), Hz; simpl; auto).
  destruct (Hz k (or_introl eq_refl)) as [Hk|Hk].
  - destruct IH as (k1 & Hin & H); [assumption|intros; apply Hz; simpl; auto|rewrite Hk in Hs; lra|]. exists k1. split; [simpl; auto|].
    intros k' [<-|Hk']; [|auto]. destruct (Nat.eqb_spec k k1) as [->|]; [contradiction|]. exact Hk.
  - exists k. split; [simpl; auto|]. intros k' [<-|Hk'].
    + rewrite Nat.eqb_refl. exact Hk.
    + destruct (Nat.eqb_spec k' k) as [->|]; [contradiction|]. cbn [ind].
      assert (Hsum : (qsum f ks == 0)%Q) by lra. clear - Hsum H0 Hk'. induction ks as [|a ks IH]; [destruct Hk'|]. rewrite qsum_cons in Hsum.
      assert (0 <= qsum f ks)%Q by (apply qsum_nonneg; intros; apply H0; simpl; auto). assert (0 <= f a)%Q by (apply H0; simpl; auto).
      destruct Hk' as [<-|Hk']; [lra|]. apply IH; auto; try lra; intros; apply H0; simpl; auto.
Qed.
Lemma at_most_one_hot (f : nat -> Q) ks : NoDup ks -> (forall k, In k ks -> zero_one (f k)) -> (qsum f ks <= 1)%Q ->
  (forall k, In k ks -> (f k == 0)%Q) \/ exists k, In k ks /\ forall k', In k' ks -> (f k' == ind (k' =? k))%Q.
Proof.
  intros Hn Hz Hs. destruct (Qlt_le_dec (1 # 2) (qsum f ks)) as [Hlt|Hle].
  - right. apply one_hot; auto. assert (Hint : exists z : Z, (qsum f ks == inject_Z z)%Q).
    { clear - Hz. induction ks as [|k ks IH]; [exists 0%Z; reflexivity|]. destruct IH as [z Ez]; [intros; apply Hz; simpl; auto|].
      destruct (Hz k (or_introl eq_refl)) as [H|H]; [exists z|exists (1 + z)%Z]; rewrite qsum_cons, Ez, H; [lra|].
      rewrite inject_Z_plus. reflexivity. }
    destruct Hint as [z Ez]. rewrite Ez in *. change 1%Q with (inject_Z 1) in *. rewrite <- Zle_Qle in Hs.
    assert (0 < z)%Z; [|replace z with 1%Z by lia; reflexivity]. rewrite Zlt_Qlt. change (inject_Z 0) with 0%Q. lra.
  - left. intros k Hk. destruct (Hz k Hk) as [H|H]; auto. exfalso.
    assert (f k <= qsum f ks)%Q; [|lra]. clear - Hz Hk. induction ks as [|a ks IH]; [destruct Hk|]. rewrite qsum_cons.
    assert (0 <= f a)%Q by (apply (zero_one_range (f a)), Hz; simpl; auto).
    assert (0 <= qsum f ks)%Q by (apply qsum_nonneg; intros b Hb; apply (zero_one_range (f b)), Hz; simpl; auto).
    destruct Hk as [->|Hk]; [lra|]. assert (f k <= qsum f ks)%Q by (apply IH; auto; intros; apply Hz; simpl; auto). lra.
Qed.

Section Decode.
Variables (u : setup) (c : pclass) (l nt : nat).
Hypotheses (V : valid_setup u) (D : valid_data u) (Hl : l < 2 ^ su_depth u).
Let lf := create_leaf l (su_depth u).
Let n_rows := length (su_X u).
Notation IDS := (ids u l).
Notation CANDS := (cands u).
Notation WT := (wt u).

(** A choice of splits; does a row walk to the leaf? *)
Definition picks (pick : nat -> nat) : Prop := forall n, In n IDS -> In (pick n) (CANDS n).
Definition walks (pick : nat -> nat) (goes : nat -> bool) : bool := forallb (fun n => Bool.eqb (goes (pick n)) (memb n (l_left lf))) IDS.

Section Point.
Variables (val : vkind -> Q) (cuts : list (list bool)).
Hypothesis Hz : forall kd, known u c l nt (length cuts) kd -> zero_one (val kd).
Hypothesis Hsat : Forall (sat_con val) (base_sc u c l nt ++ cuts_sc u c l 0 cuts).

Lemma sat_in sc : In sc (base_sc u c l nt) \/ In sc (cuts_sc u c l 0 cuts) -> sat_con val sc.
Proof. intros H. rewrite Forall_forall in Hsat. apply Hsat, in_or_app. auto. Qed.

Lemma node_pick n : In n IDS -> exists k, In k (CANDS n) /\ forall k', In k' (CANDS n) -> (val (VU n k') == ind (k' =? k))%Q.
Proof.
  intros Hn. apply one_hot.
  - apply cands_ok; auto.
  - intros k Hk. apply Hz. split; auto.
  - assert (H : sat_con val (node_sc u n)) by (apply sat_in; left; unfold base_sc; apply in_or_app; left; apply in_map; auto).
    destruct H as [H1 H2]. cbn [fst snd node_sc] in *. specialize (H1 1%Q eq_refl). specialize (H2 1%Q eq_refl).
    assert (E : (term_sum val (map (fun k => (VU n k, 1)) (CANDS n)) == qsum (fun k => val (VU n k)) (CANDS n))%Q).
    { unfold term_sum. rewrite qsum_map. apply qsum_ext. intros k _. cbn [fst snd]. lra. }
    rewrite E in *. lra.
Qed.
Lemma pick_exists : exists pick, picks pick /\ forall n k, In n IDS -> In k (CANDS n) -> (val (VU n k) == ind (k =? pick n))%Q.
Proof.
  set (pick := fun n => match find (fun k => Qltb (1 # 2) (val (VU n k))) (CANDS n) with Some k => k | None => 0 end).
  assert (H : forall n, In n IDS -> In (pick n) (CANDS n) /\ forall k, In k (CANDS n) -> (val (VU n k) == ind (k =? pick n))%Q).
  { intros n Hn. destruct (node_pick n Hn) as (k & Hk & H). unfold pick.
    destruct (find (fun k => Qltb (1 # 2) (val (VU n k))) (CANDS n)) as [k0|] eqn:E.
    - apply find_some in E. destruct E as [H0 E]. apply Qltb_true in E. rewrite (H k0 H0) in E.
      destruct (Nat.eqb_spec k0 k) as [->|]; [auto|cbn in E; lra].
    - apply (find_none _ _ E) in Hk as Hf. apply Qltb_false in Hf. rewrite (H k Hk), Nat.eqb_refl in Hf. cbn in Hf. lra. }
  exists pick. split; [intros n Hn; apply H; auto|]. intros n k Hn Hk. apply H; auto.
Qed.

Variable pick : nat -> nat.
Hypothesis Hp : picks pick.
Hypothesis Hu : forall n k, In n IDS -> In k (CANDS n) -> (val (VU n k) == ind (k =? pick n))%Q.

Lemma arm_sum goes n q : In n IDS -> (term_sum val (arm u l goes n q) == q * ind (Bool.eqb (goes (pick n)) (memb n (l_left lf))))%Q.
Proof.
  clear - V Hp Hu. intros Hn. unfold term_sum, arm. rewrite qsum_map. cbn [fst snd].
  rewrite qsum_scale. apply Qmult_comp; [reflexivity|].
  unfold good. rewrite qsum_filter. fold lf.
  transitivity (qsum (fun k => if Nat.eq_dec (pick n) k then ind (Bool.eqb (goes k) (memb n (l_left lf))) else 0)%Q (CANDS n)).
  - apply qsum_ext. intros k Hk. pose proof (Hu n k Hn Hk) as E0. destruct (Nat.eq_dec (pick n) k) as [E|E].
    + subst k. rewrite Nat.eqb_refl in E0. destruct (Bool.eqb _ _); [exact E0|reflexivity].
    + destruct (Nat.eqb_spec k (pick n)); [congruence|]. cbn [ind] in E0. destruct (Bool.eqb _ _); [exact E0|reflexivity].
  - rewrite (qsum_single (fun k => ind (Bool.eqb (goes k) (memb n (l_left lf)))) Nat.eq_dec (CANDS n) (pick n)); [reflexivity| |auto].
    apply cands_ok; auto.
Qed.
Lemma arms_sum goes ns : incl ns IDS -> (term_sum val (flat_map (fun n => arm u l goes n 1) ns) == qsum (fun n => ind (Bool.eqb (goes (pick n)) (memb n (l_left lf)))) ns)%Q.
Proof.
  clear - V Hp Hu. induction ns as [|n ns IH]; intros Hi; [reflexivity|]. cbn [flat_map]. unfold term_sum in *. rewrite qsum_app, qsum_cons.
  rewrite IH by (intros a Ha; apply Hi; simpl; auto). pose proof (arm_sum goes n 1%Q) as E. unfold term_sum in E. rewrite E by (apply Hi; simpl; auto). lra.
Qed.
Lemma ind_sum_le {A} (b : A -> bool) ns : (qsum (fun n => ind (b n)) ns <= inject_Z (Z.of_nat (length ns)))%Q.
Proof.
  clear. induction ns as [|n ns IH]; [apply Qle_refl|]. rewrite qsum_cons. cbn [length]. rewrite Nat2Z.inj_succ. unfold Z.succ. rewrite inject_Z_plus.
  change (inject_Z 1) with 1%Q. destruct (b n); cbn [ind]; lra.
Qed.
Lemma ind_sum_all {A} (b : A -> bool) ns : (forall n, In n ns -> b n = true) -> (qsum (fun n => ind (b n)) ns == inject_Z (Z.of_nat (length ns)))%Q.
Proof.
  clear. intros H. rewrite (qsum_ext _ (fun _ => 1%Q)) by (intros n Hn; rewrite (H n Hn); reflexivity). rewrite qsum_const. lra.
Qed.
Lemma ind_sum_not {A} (b : A -> bool) ns : ~ (forall n, In n ns -> b n = true) -> (qsum (fun n => ind (b n)) ns <= inject_Z (Z.of_nat (length ns) - 1))%Q.
Proof.
  clear. induction ns as [|n ns IH]; intros H; [exfalso; apply H; intros n []|]. rewrite qsum_cons. cbn [length]. rewrite Nat2Z.inj_succ.
  replace (Z.succ (Z.of_nat (length ns)) - 1)%Z with (Z.of_nat (length ns) - 1 + 1)%Z by lia. rewrite inject_Z_plus. change (inject_Z 1) with 1%Q.
  destruct (b n) eqn:Eb; cbn [ind].
  - assert (qsum (fun n => ind (b n)) ns <= inject_Z (Z.of_nat (length ns) - 1))%Q; [|lra]. apply IH. intros H'. apply H. intros m [<-|Hm]; auto.
  - pose proof (ind_sum_le b ns). unfold Z.sub. rewrite inject_Z_plus. change (inject_Z (- (1))) with (-1)%Q. lra.
Qed.
Lemma walks_iff goes : walks pick goes = true <-> forall n, In n IDS -> Bool.eqb (goes (pick n)) (memb n (l_left lf)) = true.
Proof. unfold walks. rewrite forallb_forall. reflexivity. Qed.
Lemma ids_length : length IDS = su_depth u.
Proof. apply create_leaf_length. auto. Qed.

(** The constraints of a row's variable say: the row walks to the leaf. *)
Lemma branch_iff kd goes : zero_one (val kd) -> (Forall (sat_con val) (branch_sc u c l kd goes) <-> (val kd == ind (walks pick goes))%Q).
Proof.
  clear - V Hl Hp Hu. intros Hkd.
  set (reach := ((None, Some (inject_Z (Z.of_nat (su_depth u) - 1)), (kd, (-1)%Q) :: flat_map (fun n => arm u l goes n 1%Q) IDS) : scon)).
  set (per := fun n => ((None, Some 0, (kd, 1) :: arm u l goes n (-1))%Q : scon)).
  assert (HF : Forall (sat_con val) (branch_sc u c l kd goes) <-> sat_con val reach /\ forall n, In n IDS -> sat_con val (per n)).
  { unfold branch_sc. fold reach. fold per. destruct (is_sat c).
    - rewrite Forall_app, Forall_map, Forall_forall. split; [intros [H1 H2]; inversion H2; auto|intros [H1 H2]; auto].
    - rewrite Forall_cons_iff, Forall_map, Forall_forall. reflexivity. }
  rewrite HF. clear HF. set (S := qsum (fun n => ind (Bool.eqb (goes (pick n)) (memb n (l_left lf)))) IDS).
  assert (Hreach : sat_con val reach <-> (- val kd + S <= inject_Z (Z.of_nat (su_depth u) - 1))%Q).
  { unfold sat_con, reach, in_bounds. cbn [fst snd]. pose proof (arms_sum goes IDS (fun a Ha => Ha)) as E. fold S in E.
    assert (E' : (term_sum val ((kd, -1) :: flat_map (fun n => arm u l goes n 1) IDS) == - val kd + S)%Q).
    { unfold term_sum in *. rewrite qsum_cons, E. cbn [fst snd]. lra. }
    split; [intros [_ H]; rewrite <- E'; apply H; reflexivity|]. intros H. split; [discriminate|]. intros b Hb. injection Hb as <-. rewrite E'. exact H. }
  assert (Hper : forall n, In n IDS -> (sat_con val (per n) <-> (val kd <= ind (Bool.eqb (goes (pick n)) (memb n (l_left lf))))%Q)).
  { intros n Hn. unfold sat_con, per, in_bounds. cbn [fst snd]. pose proof (arm_sum goes n (-1)%Q Hn) as E.
    assert (E' : (term_sum val ((kd, 1) :: arm u l goes n (-1)) == val kd - ind (Bool.eqb (goes (pick n)) (memb n (l_left lf))))%Q).
    { unfold term_sum in *. rewrite qsum_cons, E. cbn [fst snd]. lra. }
    split; [intros [_ H]; specialize (H 0%Q eq_refl); lra|]. intros H. split; [discriminate|]. intros b Hb. injection Hb as <-. lra. }
  rewrite Hreach. pose proof ids_length as Hlen. destruct (walks pick goes) eqn:Ew; cbn [ind].
  - rewrite walks_iff in Ew. assert (ES : (S == inject_Z (Z.of_nat (su_depth u)))%Q) by (unfold S; rewrite ind_sum_all by auto; rewrite Hlen; reflexivity).
    unfold Z.sub. rewrite inject_Z_plus. change (inject_Z (- (1))) with (-1)%Q. rewrite ES. split.
    + intros [H _]. pose proof (zero_one_range _ Hkd). lra.
    + intros H. split; [lra|]. intros n Hn. apply (Hper n Hn). rewrite (Ew n Hn). cbn [ind]. lra.
  - assert (Hnot : ~ (forall n, In n IDS -> Bool.eqb (goes (pick n)) (memb n (l_left lf)) = true)) by (rewrite <- walks_iff; congruence).
    assert (HS : (S <= inject_Z (Z.of_nat (su_depth u) - 1))%Q) by (unfold S; rewrite <- Hlen; apply ind_sum_not; exact Hnot).
    split.
    + intros [_ H]. destruct Hkd as [H0|H1]; auto. exfalso. apply Hnot. intros n Hn. specialize (H n Hn). apply (Hper n Hn) in H. rewrite H1 in H.
      destruct (Bool.eqb _ _); [reflexivity|]. unfold ind in H. exfalso. lra.
    + intros H. split; [lra|]. intros n Hn. apply (Hper n Hn). rewrite H. destruct (Bool.eqb _ _); cbn [ind]; lra.
Qed.
End Point.

(** What an integral point means: chosen splits, rows and cuts that walk to the leaf. *)
Record shape (val : vkind -> Q) (pick : nat -> nat) (cuts : list (list bool)) : Prop := {
  sh_u : forall n k, In n IDS -> In k (CANDS n) -> (val (VU n k) == ind (k =? pick n))%Q;
  sh_y : forall i, i < n_rows -> WT i <> None -> (val (VY i) == ind (walks pick (row_left u i)))%Q;
  sh_c : forall j z, nth_error cuts j = Some z -> (val (VC j) == ind (walks pick (cut_left z)))%Q
}.
Lemma cuts_in cuts j z : nth_error cuts j = Some z -> incl (branch_sc u c l (VC j) (cut_left z)) (cuts_sc u c l 0 cuts).
Proof.
  clear. intros H sc Hin. unfold cuts_sc. apply in_flat_map. exists (j, z). split; [|exact Hin].
  assert (G : forall cs s, nth_error cs j = Some z -> In (s + j, z) (combine (seq s (length cs)) cs)).
  { clear. revert j. intros j cs. revert j. induction cs as [|z0 cs IH]; intros [|j] s H; cbn in *; try discriminate.
    - injection H as <-. rewrite Nat.add_0_r. auto.
    - right. replace (s + S j) with (S s + j) by lia. apply IH. auto. }
  exact (G cuts 0 H).
Qed.
Lemma row_in i : i < n_rows -> WT i <> None -> incl (branch_sc u c l (VY i) (row_left u i)) (base_sc u c l nt).
Proof.
  clear. intros Hi Hw sc Hin. unfold base_sc. apply in_or_app. right. apply in_or_app. left. apply in_flat_map. exists i. split; [apply in_seq; fold n_rows; lia|].
  unfold row_sc. destruct (WT i); [auto|congruence].
Qed.
Lemma point_shape val cuts : (forall kd, known u c l nt (length cuts) kd -> zero_one (val kd)) ->
  Forall (sat_con val) (base_sc u c l nt ++ cuts_sc u c l 0 cuts) -> exists pick, picks pick /\ shape val pick cuts.
Proof.
  clear - V Hl. intros Hz Hs. destruct (pick_exists val cuts Hz Hs) as (pick & Hp & Hu). exists pick. split; auto. constructor; auto.
  - intros i Hi Hw. apply (branch_iff val pick Hp Hu (VY i) (row_left u i)).
    + apply Hz. cbn [known]. auto.
    + apply Forall_forall. intros sc Hin. rewrite Forall_forall in Hs. apply Hs, in_or_app. left. eapply row_in; eauto.
  - intros j z Hj. apply (branch_iff val pick Hp Hu (VC j) (cut_left z)).
    + apply Hz. cbn [known]. apply nth_error_Some. congruence.
    + apply Forall_forall. intros sc Hin. rewrite Forall_forall in Hs. apply Hs, in_or_app. right. eapply cuts_in; eauto.
Qed.

(** * Objective value *)

Section Value.
Variables (dl : tduals) (cuts : list (list bool)).
Hypothesis H0 : forall i, i < n_rows -> WT i = None -> (nth i (d_row dl) 0 == 0)%Q.

Definition label (i : nat) : nat := nth i (su_y u) 0.
Definition cost_of (val : vkind -> Q) : Q :=
  qsum (fun i => match WT i with
                 | Some w => match c with COld t => ind (label i =? t) * val (VY i) | _ => inject_Z (Z.of_nat w) * val (VZ i) end
                 | None => 0 end)%Q (seq 0 n_rows).
Definition dual_part (pick : nat -> nat) : Q :=
  (qsum (fun i => nth i (d_row dl) 0 * ind (walks pick (row_left u i))) (seq 0 n_rows)
   + qsum (fun j => nth j (d_cut dl) 0 * ind (walks pick (cut_left (nth j cuts [])))) (seq 0 (length cuts))
   + qsum (fun n => choice_dual dl l (n, pick n)) IDS)%Q.

Lemma names_perm names : NoDup names -> (forall kd, In kd names <-> known u c l nt (length cuts) kd) ->
  Permutation names (flat_map (row_names u c) (seq 0 n_rows) ++ map VC (seq 0 (length cuts)) ++ split_names u l ++ class_names c nt).
Proof.
  clear - V Hl. intros Hn H. apply NoDup_Permutation; auto.
  - apply NoDup_app_intro; [| |].
    + assert (G : forall k, NoDup (flat_map (row_names u c) (seq 0 k))).
      { induction k as [|k IH]; [constructor|]. rewrite seq_S, flat_map_app. cbn [flat_map Nat.add]. rewrite app_nil_r. apply NoDup_app_intro; auto.
        - unfold row_names. destruct (WT k); [|constructor]. destruct (is_old c); repeat constructor; simpl; intuition discriminate.
        - intros a Ha Hb. apply rows_In in Ha. unfold row_names in Hb. destruct (WT k); [|destruct Hb].
          destruct (is_old c); simpl in Hb; destruct Hb as [<-|Hb]; try destruct Hb as [<-|[]]; try lia; destruct Hb. }
      apply G.
    + apply NoDup_app_intro; [apply FinFun.Injective_map_NoDup; [intros a b; congruence|apply seq_NoDup]| |].
      * apply NoDup_app_intro.
        -- apply grid_nodup; [apply ids_nodup; auto|intros; apply cands_ok; auto].
        -- unfold class_names. destruct (is_old c); [constructor|]. apply FinFun.Injective_map_NoDup; [intros a b; congruence|apply seq_NoDup].
        -- intros a Ha Hb. apply grid_In in Ha. destruct Ha as (n & k & -> & _). unfold class_names in Hb. destruct (is_old c); [destruct Hb|].
           apply in_map_iff in Hb. destruct Hb as (t & Et & _). discriminate.
      * intros a Ha Hb. apply in_map_iff in Ha. destruct Ha as (j & <- & _). apply in_app_or in Hb. destruct Hb as [Hb|Hb].
        -- apply grid_In in Hb. destruct Hb as (n & k & E & _). discriminate.
        -- unfold class_names in Hb. destruct (is_old c); [destruct Hb|]. apply in_map_iff in Hb. destruct Hb as (t & Et & _). discriminate.
    + intros a Ha Hb. apply rows_In in Ha. apply in_app_or in Hb. destruct Hb as [Hb|Hb]; [|apply in_app_or in Hb; destruct Hb as [Hb|Hb]].
      * apply in_map_iff in Hb. destruct Hb as (j & <- & _). exact Ha.
      * apply grid_In in Hb. destruct Hb as (n & k & -> & _). exact Ha.
      * unfold class_names in Hb. destruct (is_old c); [destruct Hb|]. apply in_map_iff in Hb. destruct Hb as (t & <- & _). exact Ha.
  - intros kd. rewrite H, !in_app_iff, rows_In. fold n_rows. unfold split_names. rewrite grid_In, in_map_iff. unfold class_names, known. fold n_rows. split.
    + destruct kd as [i|i|i|n k|t]; intros HH; auto.
      * right. left. exists i. split; auto. apply in_seq. lia.
      * right. right. left. destruct HH. eauto.
      * right. right. right. destruct HH as [-> HH]. apply in_map, in_seq. lia.
    + intros [HH|[(j & <- & HH)|[(n & k & -> & HH)|HH]]].
      * destruct kd; auto; destruct HH.
      * apply in_seq in HH. lia.
      * auto.
      * destruct (is_old c) eqn:Eo; [destruct HH|]. apply in_map_iff in HH. destruct HH as (t & <- & HH). apply in_seq in HH. split; auto. lia.
Qed.

Lemma value_eq names val pick : NoDup names -> (forall kd, In kd names <-> known u c l nt (length cuts) kd) -> picks pick -> shape val pick cuts ->
  (qsum (fun kd => cf u c l dl kd * val kd) names == cost_of val - dual_part pick)%Q.
Proof.
  clear - V Hl H0. intros Hn Hk Hp S. rewrite (qsum_perm _ _ _ (names_perm names Hn Hk)), !qsum_app.
  assert (E1 : (qsum (fun kd => cf u c l dl kd * val kd) (flat_map (row_names u c) (seq 0 n_rows)) ==
    cost_of val - qsum (fun i => nth i (d_row dl) 0 * ind (walks pick (row_left u i))) (seq 0 n_rows))%Q).
  { unfold cost_of. rewrite <- qsum_minus. assert (Hi : forall i, In i (seq 0 n_rows) -> i < n_rows) by (intros i Hi; apply in_seq in Hi; lia).
    revert Hi. generalize (seq 0 n_rows). intros rs Hi. induction rs as [|i rs IH]; [reflexivity|]. cbn [flat_map]. rewrite qsum_app, qsum_cons, IH by (intros; apply Hi; simpl; auto).
    apply Qplus_comp; [|reflexivity]. specialize (Hi i (or_introl eq_refl)). unfold row_names. destruct (WT i) as [w|] eqn:Ew.
    - assert (Hy : (val (VY i) == ind (walks pick (row_left u i)))%Q) by (apply (sh_y _ _ _ S); [auto|congruence]).
      destruct c as [| |t]; cbn [is_old]; rewrite ?qsum_cons; cbn [qsum fold_right cf]; rewrite ?Ew; rewrite <- ?Hy; try lra.
      unfold label. destruct (nth i (su_y u) 0 =? t); cbn [ind]; lra.
    - cbn [qsum fold_right]. rewrite (H0 i Hi Ew). lra. }
  assert (E2 : (qsum (fun kd => cf u c l dl kd * val kd) (map VC (seq 0 (length cuts))) ==
    - qsum (fun j => nth j (d_cut dl) 0 * ind (walks pick (cut_left (nth j cuts [])))) (seq 0 (length cuts)))%Q).
  { rewrite qsum_map. transitivity (qsum (fun j => (-1) * (nth j (d_cut dl) 0 * ind (walks pick (cut_left (nth j cuts [])))))%Q (seq 0 (length cuts))).
    - apply qsum_ext. intros j Hj. apply in_seq in Hj. cbn [cf]. rewrite (sh_c _ _ _ S j (nth j cuts [])) by (apply nth_error_nth'; lia). lra.
    - rewrite qsum_scale. lra. }
  assert (E3 : (qsum (fun kd => cf u c l dl kd * val kd) (split_names u l) == - qsum (fun n => choice_dual dl l (n, pick n)) IDS)%Q).
  { unfold split_names. assert (Hi : incl IDS IDS) by (intros a Ha; exact Ha). revert Hi. generalize IDS at 1 3 4. intros ns Hi. induction ns as [|n ns IH]; [reflexivity|].
    cbn [flat_map]. rewrite qsum_app, qsum_cons, IH by (intros a Ha; apply Hi; simpl; auto). specialize (Hi n (or_introl eq_refl)).
    assert (E : (qsum (fun kd => cf u c l dl kd * val kd) (map (VU n) (CANDS n)) == - choice_dual dl l (n, pick n))%Q); [|lra].
    rewrite qsum_map. transitivity (qsum (fun k => if Nat.eq_dec (pick n) k then - choice_dual dl l (n, k) else 0)%Q (CANDS n)).
    - apply qsum_ext. intros k Hkc. cbn [cf]. pose proof (sh_u _ _ _ S n k Hi Hkc) as E. destruct (Nat.eq_dec (pick n) k) as [<-|Hne].
      + rewrite Nat.eqb_refl in E. cbn [ind] in E. rewrite E. lra.
      + destruct (Nat.eqb_spec k (pick n)); [congruence|]. cbn [ind] in E. rewrite E. lra.
    - apply (qsum_single (fun k => - choice_dual dl l (n, k))%Q Nat.eq_dec (CANDS n) (pick n)); [apply cands_ok; auto|auto]. }
  assert (E4 : (qsum (fun kd => cf u c l dl kd * val kd) (class_names c nt) == 0)%Q).
  { unfold class_names. destruct (is_old c); [reflexivity|]. rewrite qsum_map. apply qsum_zero. intros t _. cbn [cf]. lra. }
  rewrite E1, E2, E3, E4. unfold dual_part. lra.
Qed.

(** * Paths *)

Definition pick_path (pick : nat -> nat) (p : path) : Prop :=
  p_leaf p = l /\ Permutation (p_nodes p) IDS /\ p_splits p = map pick (p_nodes p).
Lemma combine_map_r {A B} (f : A -> B) ns : combine ns (map f ns) = map (fun n => (n, f n)) ns.
Proof. clear. induction ns as [|n ns IH]; cbn; [reflexivity|]. rewrite IH. reflexivity. Qed.
Lemma pick_choices pick p : pick_path pick p -> choices p = map (fun n => (n, pick n)) (p_nodes p).
Proof. clear. intros (_ & _ & E). unfold choices. rewrite E. apply combine_map_r. Qed.
Lemma pick_follows pick p goes : pick_path pick p -> (follows lf goes p <-> walks pick goes = true).
Proof.
  clear. intros P. unfold follows. rewrite (pick_choices pick p P), walks_iff. destruct P as (_ & Hperm & _).
  assert (Hmem : forall n, Bool.eqb (goes (pick n)) (memb n (l_left lf)) = true <-> (goes (pick n) = true <-> In n (l_left lf))).
  { intros n. rewrite Bool.eqb_true_iff, <- memb_In. destruct (goes (pick n)), (memb n (l_left lf)); intuition congruence. }
  split.
  - intros H n Hn. apply Hmem, H. apply in_map_iff. exists n. split; auto. eapply Permutation_in; [apply Permutation_sym; exact Hperm|auto].
  - intros H n k Hin. apply in_map_iff in Hin. destruct Hin as (n' & E & Hn'). injection E as <- <-. apply Hmem, H. eapply Permutation_in; eauto.
Qed.
Lemma pick_leaf p : p_leaf p = l -> nth_error (su_leaves u) (p_leaf p) = Some lf.
Proof. clear - Hl. intros ->. apply complete_leaves_nth. auto. Qed.
Lemma pick_row pick p i : pick_path pick p -> (covers (su_X u) (su_leaves u) (su_splits u) (KRow i) p <-> i < n_rows /\ walks pick (row_left u i) = true).
Proof.
  clear - Hl. intros P. cbn [covers]. rewrite <- (pick_follows pick p (row_left u i) P). pose proof (pick_leaf p (proj1 P)) as El. split.
  - intros (x & lf' & Ex & E & H). assert (lf' = lf) by congruence. subst lf'. split; [apply nth_error_Some; congruence|].
    unfold row_left. rewrite (nth_error_nth _ _ _ Ex). exact H.
  - intros [Hi H]. exists (nth i (su_X u) []), lf. split; [apply nth_error_nth'; auto|]. split; auto.
Qed.
Lemma pick_cut pick p z : pick_path pick p -> (covers (su_X u) (su_leaves u) (su_splits u) (KCut z) p <-> walks pick (cut_left z) = true).
Proof.
  clear - Hl. intros P. cbn [covers]. rewrite <- (pick_follows pick p (cut_left z) P). pose proof (pick_leaf p (proj1 P)) as El. split.
  - intros (lf' & E & H). assert (lf' = lf) by congruence. subst lf'. exact H.
  - intros H. exists lf. split; auto.
Qed.
Lemma pick_price pick p : pick_path pick p -> reported_price u cuts dl p (p_cost p - nth l (d_leaf dl) 0 - dual_part pick)%Q.
Proof.
  clear - Hl. intros P.
  exists (filter (fun i => walks pick (row_left u i)) (seq 0 n_rows)), (filter (fun j => walks pick (cut_left (nth j cuts []))) (seq 0 (length cuts))).
  split; [apply NoDup_filter, seq_NoDup|]. split; [intros i; rewrite filter_In, in_seq, (pick_row pick p i P); intuition lia|].
  split; [apply NoDup_filter, seq_NoDup|]. split.
  { intros j. rewrite filter_In, in_seq. split.
    - intros [Hj H]. exists (nth j cuts []). split; [apply nth_error_nth'; lia|]. apply (pick_cut pick p _ P). exact H.
    - intros (z & Ez & H). apply (pick_cut pick p z P) in H. split; [assert (j < length cuts) by (apply nth_error_Some; congruence); lia|].
      rewrite (nth_error_nth _ _ _ Ez). exact H. }
  rewrite (proj1 P), (pick_choices pick p P), qsum_map. destruct P as (_ & Hperm & _).
  rewrite (qsum_perm (fun n => choice_dual dl l (n, pick n)) _ _ Hperm), !qsum_filter. unfold dual_part.
  rewrite (qsum_ext (fun i => nth i (d_row dl) 0 * ind (walks pick (row_left u i)))%Q (fun i => if walks pick (row_left u i) then nth i (d_row dl) 0 else 0)%Q)
    by (intros i _; destruct (walks pick (row_left u i)); cbn [ind]; lra).
  rewrite (qsum_ext (fun j => nth j (d_cut dl) 0 * ind (walks pick (cut_left (nth j cuts []))))%Q (fun j => if walks pick (cut_left (nth j cuts [])) then nth j (d_cut dl) 0 else 0)%Q)
    by (intros i _; destruct (walks pick _); cbn [ind]; lra).
  lra.
Qed.
(** Every path of the tree to this leaf arises from a choice of splits. *)
Lemma path_pick p : tree_path (su_depth u) (su_splits u) p -> uses_candidates (su_nodes u) p -> p_leaf p = l ->
  exists pick, pick_path pick p /\ picks pick.
Proof.
  clear - V. intros Hp Hc El. pose proof (tree_path_NoDup _ _ _ Hp) as Hn. destruct (tree_path_lengths _ _ _ Hp) as [L1 L2].
  destruct Hp as (_ & Hperm & _ & _). rewrite El in Hperm.
  set (pk := fun n => match find (fun nk => fst nk =? n) (choices p) with Some nk => snd nk | None => 0 end).
  assert (G : forall ns ks, NoDup ns -> length ns = length ks ->
    ks = map (fun n => match find (fun nk => fst nk =? n) (combine ns ks) with Some nk => snd nk | None => 0 end) ns).
  { clear. induction ns as [|n ns IH]; intros [|k ks] Hn Hlen; try discriminate; auto. cbn [combine map find fst]. rewrite Nat.eqb_refl. cbn [snd]. f_equal.
    inversion Hn; subst. rewrite (IH ks) at 1 by (auto; cbn in Hlen; lia). apply map_ext_in. intros m Hm.
    destruct (Nat.eqb_spec n m) as [->|]; [contradiction|reflexivity]. }
  assert (Hs : p_splits p = map pk (p_nodes p)) by (apply G; auto; lia).
  assert (P : pick_path pk p) by (split; [auto|split; [exact Hperm|exact Hs]]). exists pk. split; [exact P|].
  intros n Hin. assert (Hin' : In n (p_nodes p)) by (eapply Permutation_in; [apply Permutation_sym; exact Hperm|exact Hin]).
  assert (Hch : In (n, pk n) (choices p)) by (rewrite (pick_choices pk p P); apply in_map_iff; exists n; auto).
  destruct (Hc _ _ Hch) as (nd & End & Hk). unfold cands. rewrite End. exact Hk.
Qed.
Lemma pick_tree pick p : picks pick -> pick_path pick p -> tree_path (su_depth u) (su_splits u) p /\ uses_candidates (su_nodes u) p.
Proof.
  clear - V Hl. intros Hp P. pose proof (pick_choices pick p P) as Ec. destruct P as (E1 & Hperm & E2). split.
  - split; [rewrite E1; auto|]. split; [rewrite E1; exact Hperm|]. split.
    + rewrite E2, map_length, (Permutation_length Hperm). apply create_leaf_length. auto.
    + rewrite E2, Forall_map, Forall_forall. intros n Hn. pose proof (cands_ok u V n) as [_ HF]. rewrite Forall_forall in HF. apply HF, Hp.
      eapply Permutation_in; eauto.
  - intros n k Hin. rewrite Ec in Hin. apply in_map_iff in Hin. destruct Hin as (n' & E & Hn'). injection E as <- <-.
    assert (Hk : In (pick n') (CANDS n')) by (apply Hp; eapply Permutation_in; eauto). unfold cands in Hk.
    destruct (nth_error (su_nodes u) n') as [nd|]; [eauto|destruct Hk].
Qed.
End Value.
End Decode.

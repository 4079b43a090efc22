(** The quadratic loop of the experiment script's preprocessing. *)
From Verif Require Import Base Lp LpProofs TreeModel SpecTree TreeGeoProofs TreePathProofs TreeLpBuild TreeFormProofs TreeBuildProofs TreeInvProofs SpecTreeRun
  SpecTreeLp TreeLpProofs TreeReachProofs ExpModel ExpRowProofs.
Open Scope nat_scope.

(** Equal up to the flags and the weight. *)
Definition st (a b : row) : Prop :=
  r_nodes a = r_nodes b /\ r_paths a = r_paths b /\ r_leaves a = r_leaves b /\ r_left a = r_left b /\ r_right a = r_right b.
Lemma st_refl a : st a a. Proof. repeat split. Qed.
Lemma st_trans a b c : st a b -> st b c -> st a c. Proof. unfold st. intuition congruence. Qed.
Lemma st_gone a : st a (gone a). Proof. repeat split. Qed.
Lemma st_gone_sp a : st a (gone_sp a). Proof. repeat split. Qed.
Lemma st_heavier a : st a (heavier a). Proof. repeat split. Qed.
Lemma rows_match_st ns a b a' b' : st a a' -> st b b' -> rows_match ns a' b' = rows_match ns a b.
Proof. intros (A1 & _ & _ & A2 & _) (B1 & _ & _ & B2 & _). unfold rows_match. rewrite A1, A2, B1, B2. reflexivity. Qed.

Section Loop.
Variables (ns : list node) (y : list nat) (time_limit : Q) (clk : nat -> Q) (t0 : Q).
Variable rows0 : list row.
Let n := length rows0.
Variable mb : nat -> nat -> bool.
Hypothesis Hmb : forall i j a b, nth_error rows0 i = Some a -> nth_error rows0 j = Some b -> rows_match ns a b = Ok (mb i j).
Hypothesis Hy : length y = n.

Definition same_st (rows : list row) : Prop :=
  length rows = n /\ forall r a b, nth_error rows0 r = Some a -> nth_error rows r = Some b -> st a b.
Lemma row_at rows r : same_st rows -> r < n -> exists a b, nth_error rows0 r = Some a /\ nth_error rows r = Some b /\ st a b.
Proof.
  clear Hy. intros [H1 H2] Hr. destruct (nth_error_some_lt rows0 r Hr) as [a Ea]. destruct (nth_error_some_lt rows r) as [b Eb]; [lia|]. exists a, b. eauto.
Qed.
Definition ysame (i j : nat) : bool := match nth_error y i, nth_error y j with Some a, Some b => a =? b | _, _ => false end.
(** The row [b] with number [r] after it was found to match row [r1], which is [a]. *)
Definition dropped (r1 : nat) (a : row) (r : nat) (b : row) : row :=
  let b1 := if r_gone a then b else gone b in if ysame r1 r then gone_sp b1 else b1.
Definition weigh (k : nat) (a : row) : row := Nat.iter k heavier a.
Lemma weigh_st k a : st a (weigh k a).
Proof. induction k; cbn; [apply st_refl|]. eapply st_trans; [exact IHk|apply st_heavier]. Qed.
Lemma weigh_flags k a : r_gone (weigh k a) = r_gone a /\ r_gone_sp (weigh k a) = r_gone_sp a /\ r_weight (weigh k a) = r_weight a + k.
Proof. clear. induction k as [|k (H1 & H2 & H3)]; [cbn [weigh Nat.iter]; rewrite Nat.add_0_r; auto|]. change (weigh (S k) a) with (heavier (weigh k a)). cbn [heavier r_gone r_gone_sp r_weight]. repeat split; auto. lia. Qed.
Lemma weigh_heavier k a : weigh k (heavier a) = weigh (S k) a.
Proof. induction k; [reflexivity|]. change (weigh (S k) (heavier a)) with (heavier (weigh k (heavier a))). rewrite IHk. reflexivity. Qed.
Lemma dropped_st r1 a r b : st b (dropped r1 a r b).
Proof. unfold dropped. destruct (ysame r1 r), (r_gone a); repeat split. Qed.

Lemma drop_row_ok rows r1 r2 a b : length rows = n -> r1 < n -> r2 < n -> r1 <> r2 -> nth_error rows r1 = Some a -> nth_error rows r2 = Some b ->
  exists rows', drop_row y r1 r2 rows = Ok rows' /\ length rows' = n /\
    nth_error rows' r1 = Some (if ysame r1 r2 then heavier a else a) /\ nth_error rows' r2 = Some (dropped r1 a r2 b) /\
    forall r, r <> r1 -> r <> r2 -> nth_error rows' r = nth_error rows r.
Proof.
  intros L H1 H2 Hne Ea Eb. unfold drop_row. rewrite (getitem_nth _ _ _ Ea), (getitem_nth _ _ _ Eb). cbn [bind].
  destruct (nth_error_some_lt y r1) as [y1 E1]; [lia|]. destruct (nth_error_some_lt y r2) as [y2 E2]; [lia|].
  rewrite (getitem_nth _ _ _ E1), (getitem_nth _ _ _ E2). cbn [bind]. unfold ysame, dropped, ysame. rewrite E1, E2.
  set (rows1 := if r_gone a then rows else set_nth rows r2 (gone b)). set (b1 := if r_gone a then b else gone b).
  assert (F : length rows1 = n /\ nth_error rows1 r2 = Some b1 /\ forall r, r <> r2 -> nth_error rows1 r = nth_error rows r).
  { unfold rows1, b1. destruct (r_gone a); [auto|]. split; [rewrite length_set_nth; auto|]. split.
    - apply nth_error_set_nth_same; rewrite ?length_set_nth; lia.
    - intros r Hr. apply nth_error_set_nth_other. auto. }
  destruct F as (F1 & F2 & F3). destruct (y1 =? y2).
  - rewrite (getitem_nth _ _ _ F2). cbn [bind].
    assert (Ea' : nth_error (set_nth rows1 r2 (gone_sp b1)) r1 = Some a) by (rewrite nth_error_set_nth_other by auto; rewrite F3; auto).
    rewrite (getitem_nth _ _ _ Ea'). cbn [bind]. eexists. split; [reflexivity|]. split; [rewrite !length_set_nth; auto|]. split; [|split].
    + apply nth_error_set_nth_same; rewrite ?length_set_nth; lia.
    + rewrite nth_error_set_nth_other by auto. apply nth_error_set_nth_same; rewrite ?length_set_nth; lia.
    + intros r Hr1 Hr2. rewrite !nth_error_set_nth_other by auto. auto.
  - exists rows1. split; auto. split; auto. split; [rewrite F3; auto|]. split; auto.
Qed.

(** Rows of [u] that row [r1] drops. *)
Definition hit (r1 : nat) (u : list nat) (r : nat) (b : row) : bool := memb r u && (negb (r_gone_sp b) && mb r1 r).
Lemma memb_cons r a u : memb r (a :: u) = (r =? a) || memb r u.
Proof. reflexivity. Qed.
Definition spb (rows : list row) (r : nat) : bool := match nth_error rows r with Some b => r_gone_sp b | None => true end.
Definition hits (r1 : nat) (rows : list row) (u : list nat) : list nat := filter (fun r => (negb (spb rows r) && mb r1 r) && ysame r1 r) u.

Lemma late_ticked k : late time_limit clk t0 k = true -> ticked time_limit k = S k.
Proof. unfold late, ticked. destruct (Qltb 0 time_limit); [auto|discriminate]. Qed.
Lemma ticked_ge k : k <= ticked time_limit k.
Proof. unfold ticked. destruct (Qltb 0 time_limit); lia. Qed.

Lemma inner_ok r1 : forall rs rows k a, same_st rows -> r1 < n -> nth_error rows r1 = Some a -> NoDup rs -> ~ In r1 rs -> Forall (fun r => r < n) rs ->
  exists u v rows' k', rs = u ++ v /\ inner_loop ns y time_limit clk t0 r1 rs rows k = Ok (rows', k') /\ k <= k' /\
    (v = [] \/ exists j, j < k' /\ late time_limit clk t0 j = true) /\ same_st rows' /\
    nth_error rows' r1 = Some (weigh (length (hits r1 rows u)) a) /\
    (forall r b, r <> r1 -> nth_error rows r = Some b -> nth_error rows' r = Some (if hit r1 u r b then dropped r1 a r b else b)).
Proof.
  induction rs as [|r2 rs IH]; intros rows k a S H1 Ea N Hn R; cbn [inner_loop].
  - exists [], [], rows, k. repeat (split; [solve [auto]|]). auto.
  - destruct (late time_limit clk t0 k) eqn:El.
    { exists [], (r2 :: rs), rows, (ticked time_limit k). split; auto. split; auto. split; [apply ticked_ge|]. split; [|split; [auto|split; auto]].
      right. exists k. rewrite (late_ticked k El). auto. }
    inversion N as [|? ? N2 N']; subst. inversion R as [|? ? R2 R']; subst.
    assert (Hne : r1 <> r2) by (intros ->; apply Hn; left; auto). assert (Hn' : ~ In r1 rs) by (intros ?; apply Hn; right; auto).
    destruct (row_at rows r2 S R2) as (b0 & b & Eb0 & Eb & Sb). rewrite (getitem_nth _ _ _ Eb). cbn [bind].
    assert (Skip : forall m : bool, (negb (r_gone_sp b) && mb r1 r2 = false) ->
      exists u v rows' k', r2 :: rs = u ++ v /\ inner_loop ns y time_limit clk t0 r1 rs rows (ticked time_limit k) = Ok (rows', k') /\ k <= k' /\
      (v = [] \/ exists j, j < k' /\ late time_limit clk t0 j = true) /\ same_st rows' /\
      nth_error rows' r1 = Some (weigh (length (hits r1 rows u)) a) /\
      (forall r b, r <> r1 -> nth_error rows r = Some b -> nth_error rows' r = Some (if hit r1 u r b then dropped r1 a r b else b))).
    { intros _ Hs. destruct (IH rows (ticked time_limit k) a S H1 Ea N' Hn' R') as (u & v & rows' & k' & E & E1 & K & V & S' & W & O).
      exists (r2 :: u), v, rows', k'. split; [cbn; congruence|]. split; auto. split; [pose proof (ticked_ge k); lia|]. split; auto. split; auto. split.
      - rewrite W. unfold hits at 2. cbn [filter]. unfold spb at 1. rewrite Eb, Hs. cbn [andb]. try reflexivity.
      - intros r c Hr Ec. rewrite (O r c Hr Ec). f_equal. unfold hit. rewrite memb_cons. destruct (Nat.eqb_spec r r2) as [->|]; cbn [orb andb]; auto.
        rewrite Ec in Eb. injection Eb as ->. rewrite Hs, andb_false_r. reflexivity. }
    destruct (r_gone_sp b) eqn:Eg.
    { apply (Skip true). reflexivity. }
    rewrite (getitem_nth _ _ _ Ea). cbn [bind]. destruct (nth_error_some_lt rows0 r1 H1) as [a0 Ea0].
    rewrite (rows_match_st ns a0 b0 a b) by (auto; apply (proj2 S r1); auto). rewrite (Hmb r1 r2 a0 b0) by auto. cbn [bind].
    destruct (mb r1 r2) eqn:Em; [|apply (Skip true); reflexivity].
    destruct (drop_row_ok rows r1 r2 a b (proj1 S) H1 R2 Hne Ea Eb) as (rows1 & E1 & L1 & A1 & B1 & O1). rewrite E1. cbn [bind].
    set (a1 := if ysame r1 r2 then heavier a else a) in *.
    assert (Sa : st a a1) by (unfold a1; destruct (ysame r1 r2); [apply st_heavier|apply st_refl]).
    assert (S1 : same_st rows1).
    { split; auto. intros r c e Ec Ee. destruct (Nat.eq_dec r r1) as [->|]; [|destruct (Nat.eq_dec r r2) as [->|]].
      - rewrite A1 in Ee. injection Ee as <-. eapply st_trans; [|exact Sa]. apply (proj2 S r1); auto.
      - rewrite B1 in Ee. injection Ee as <-. eapply st_trans; [|apply dropped_st]. apply (proj2 S r2); auto.
      - rewrite O1 in Ee by auto. apply (proj2 S r); auto. }
    destruct (IH rows1 (ticked time_limit k) a1 S1 H1 A1 N' Hn' R') as (u & v & rows' & k' & E & E2 & K & V & S' & W & O).
    exists (r2 :: u), v, rows', k'. split; [cbn; congruence|]. split; auto. split; [pose proof (ticked_ge k); lia|]. split; auto. split; auto.
    assert (Nu : ~ In r2 u /\ ~ In r1 u) by (rewrite E in N2, Hn'; rewrite in_app_iff in N2, Hn'; tauto). destruct Nu as [Nu1 Nu2].
    assert (Hh : hits r1 rows1 u = hits r1 rows u).
    { unfold hits. apply filter_ext_in. intros r Hr. unfold spb. rewrite O1; auto; intros ->; auto. }
    split.
    + rewrite W, Hh. f_equal. unfold hits at 2. cbn [filter]. unfold spb at 1. rewrite Eb, Eg, Em. cbn [negb andb].
      unfold a1. destruct (ysame r1 r2); [|reflexivity]. rewrite weigh_heavier. reflexivity.
    + intros r c Hr Ec. assert (Ega : r_gone a1 = r_gone a) by (unfold a1; destruct (ysame r1 r2); reflexivity).
      assert (Ed : dropped r1 a1 r c = dropped r1 a r c) by (unfold dropped; rewrite Ega; reflexivity).
      unfold hit at 1. rewrite memb_cons. destruct (Nat.eqb_spec r r2) as [->|Hr2]; cbn [orb andb].
      * rewrite Ec in Eb. injection Eb as ->. rewrite Eg, Em. cbn [negb andb]. rewrite (O r2 _ Hr B1). f_equal.
        unfold hit. apply memb_false in Nu1. rewrite Nu1. reflexivity.
      * rewrite (O r c Hr); [|rewrite O1; auto]. rewrite Ed. reflexivity.
Qed.
End Loop.

Section Outer.
Variables (ns : list node) (y : list nat) (time_limit : Q) (clk : nat -> Q) (t0 : Q).
Variable rows0 : list row.
Let n := length rows0.
Variable mb : nat -> nat -> bool.
Hypothesis Hmb : forall i j a b, nth_error rows0 i = Some a -> nth_error rows0 j = Some b -> rows_match ns a b = Ok (mb i j).
Hypothesis Hy : length y = n.
Hypothesis mb_refl : forall i, i < n -> mb i i = true.
Hypothesis mb_sym : forall i j, i < n -> j < n -> mb i j = true -> mb j i = true.
Hypothesis mb_trans : forall i j k, i < n -> j < n -> k < n -> mb i j = true -> mb j k = true -> mb i k = true.

(** [rep r] is the row kept for row [r]; rows below [i] have been processed. *)
Record kept_rows (i : nat) (rep : nat -> nat) (rows : list row) : Prop := {
  kr_st : same_st rows0 rows;
  kr_le : forall r, r < n -> rep r <= r;
  kr_mb : forall r, r < n -> mb (rep r) r = true;
  kr_y : forall r, r < n -> ysame y (rep r) r = true;
  kr_rep : forall r, r < n -> rep (rep r) = rep r;
  kr_sp : forall r b, nth_error rows r = Some b -> (r_gone_sp b = false <-> rep r = r);
  kr_weight : forall r b, nth_error rows r = Some b -> rep r = r -> r_weight b = length (filter (fun r' => rep r' =? r) (seq 0 n));
  kr_done : forall r, r < n -> rep r = r \/ rep r < i;
  kr_gone0 : forall r b0 b, nth_error rows0 r = Some b0 -> nth_error rows r = Some b -> r_gone b0 = true -> r_gone b = true;
  kr_gone : forall r b0 b, nth_error rows0 r = Some b0 -> nth_error rows r = Some b -> r_gone b = true -> r_gone b0 = true \/
    exists r' b', r' < r /\ r' < i /\ nth_error rows r' = Some b' /\ r_gone b' = false /\ mb r' r = true
}.
(** Rows from [i] on: a row that matches one gone from the master problem is gone itself. *)
Definition gone_together (i : nat) (rows : list row) : Prop :=
  forall r r' b b', i <= r -> i <= r' -> nth_error rows r = Some b -> nth_error rows r' = Some b' -> mb r r' = true ->
    r_gone b = true -> r_gone_sp b' = false -> r_gone b' = true.
Definition sp_gone (rows : list row) : Prop := forall r b, nth_error rows r = Some b -> r_gone_sp b = true -> r_gone b = true.

Lemma ysame_refl r : r < n -> ysame y r r = true.
Proof. intros H. unfold ysame. destruct (nth_error_some_lt y r) as [a E]; [lia|]. rewrite E. apply Nat.eqb_refl. Qed.
Lemma count_or {A} (f g : A -> bool) l : (forall a, f a = true -> g a = false) ->
  length (filter (fun a => f a || g a) l) = length (filter f l) + length (filter g l).
Proof.
  intros H. induction l as [|a l IH]; [reflexivity|]. cbn [filter]. specialize (H a). destruct (f a), (g a); cbn [orb length]; try rewrite IH; try lia.
Qed.

Lemma outer_step i rep rows k a : i < n -> kept_rows i rep rows -> nth_error rows i = Some a -> r_gone_sp a = false ->
  exists rows' k' rep', inner_loop ns y time_limit clk t0 i (seq (i + 1) (length rows - (i + 1))) rows k = Ok (rows', k') /\ k <= k' /\
    kept_rows (S i) rep' rows' /\
    (gone_together i rows -> sp_gone rows ->
       sp_gone rows' /\ (gone_together (S i) rows' \/ exists j, j < k' /\ late time_limit clk t0 j = true)).
Proof.
  intros Hi K Ea Eg. pose proof (kr_st _ _ _ K) as S. assert (L : length rows = n) by apply S.
  destruct (inner_ok ns y time_limit clk t0 rows0 mb Hmb Hy i (seq (i + 1) (length rows - (i + 1))) rows k a S Hi Ea) as
    (u & v & rows' & k' & Eu & E & Kk & V & S' & W & O).
  { apply seq_NoDup. } { rewrite in_seq. lia. } { apply Forall_forall. intros r. rewrite in_seq. lia. }
  assert (Hu : forall r, In r u -> i < r < n).
  { intros r Hr. assert (Hin : In r (seq (i + 1) (length rows - (i + 1)))) by (rewrite Eu; apply in_app_iff; auto). apply in_seq in Hin. lia. }
  assert (Nu : NoDup u) by
    (assert (N0 : NoDup (u ++ v)) by (rewrite <- Eu; apply seq_NoDup); clear - N0; induction u as [|x u IH]; [constructor|];
     inversion N0 as [|? ? N1 N2]; subst; constructor; auto; rewrite in_app_iff in N1; tauto).
  set (h := fun r => memb r u && ((negb (spb rows r) && mb i r) && ysame y i r)).
  set (rep' := fun r => if h r then i else rep r).
  assert (Hh : forall r, h r = true -> i < r < n /\ rep r = r /\ mb i r = true /\ ysame y i r = true).
  { intros r. unfold h. rewrite !andb_true_iff, memb_In, negb_true_iff. intros (H1 & (H2 & H3) & H4). specialize (Hu r H1). split; auto. split; auto.
    destruct (nth_error_some_lt rows r) as [b Eb]; [lia|]. unfold spb in H2. rewrite Eb in H2. apply (kr_sp _ _ _ K r b Eb). auto. }
  assert (Hhi : forall r, r <= i -> h r = false) by (intros r Hr; destruct (h r) eqn:E0; auto; apply Hh in E0; lia).
  assert (Ri : rep i = i) by (apply (kr_sp _ _ _ K i a Ea); auto).
  assert (Hrow : forall r b', nth_error rows' r = Some b' -> r <> i -> exists b, nth_error rows r = Some b /\ b' = if hit mb i u r b then dropped y i a r b else b).
  { intros r b' Eb' Hr. destruct (nth_error_some_lt rows r) as [b Eb].
    { assert (r < length rows') by (apply nth_error_Some; congruence). destruct S' as [S' _]. lia. }
    exists b. split; auto. rewrite (O r b Hr Eb) in Eb'. congruence. }
  assert (Hsp : forall r b, nth_error rows r = Some b -> r_gone_sp (if hit mb i u r b then dropped y i a r b else b) = r_gone_sp b || h r).
  { intros r b Eb. unfold h, hit, dropped, spb. rewrite Eb. destruct (memb r u), (r_gone_sp b) eqn:Eb1, (mb i r), (ysame y i r), (r_gone a); cbn; auto. }
  exists rows', k', rep'. split; auto. split; auto. split.
  - constructor; auto.
    + intros r Hr. unfold rep'. destruct (h r) eqn:E0; [apply Hh in E0; lia|apply (kr_le _ _ _ K); auto].
    + intros r Hr. unfold rep'. destruct (h r) eqn:E0; [apply Hh in E0; tauto|apply (kr_mb _ _ _ K); auto].
    + intros r Hr. unfold rep'. destruct (h r) eqn:E0; [apply Hh in E0; tauto|apply (kr_y _ _ _ K); auto].
    + intros r Hr. unfold rep'. destruct (h r) eqn:E0; [rewrite Hhi by lia; auto|]. destruct (kr_done _ _ _ K r Hr) as [E1|E1].
      * rewrite E1, E0. auto.
      * rewrite Hhi by lia. apply (kr_rep _ _ _ K); auto.
    + intros r b' Eb'. destruct (Nat.eq_dec r i) as [->|Hr].
      * rewrite W in Eb'. injection Eb' as <-. destruct (weigh_flags (length (hits y mb i rows u)) a) as (_ & -> & _). rewrite Eg. unfold rep'.
        rewrite Hhi by lia. tauto.
      * destruct (Hrow r b' Eb' Hr) as (b & Eb & ->). rewrite (Hsp r b Eb), orb_false_iff, (kr_sp _ _ _ K r b Eb). unfold rep'.
        destruct (h r) eqn:E0; [split; [intros [_ ?]; discriminate|intros; apply Hh in E0; lia]|tauto].
    + intros r b' Eb' Er. destruct (Nat.eq_dec r i) as [->|Hr].
      * rewrite W in Eb'. injection Eb' as <-. destruct (weigh_flags (length (hits y mb i rows u)) a) as (_ & _ & ->).
        rewrite (kr_weight _ _ _ K i a Ea Ri).
        rewrite (filter_ext (fun r' => rep' r' =? i) (fun r' => (rep r' =? i) || h r')).
        2: { intros r. unfold rep'. destruct (h r); [rewrite Nat.eqb_refl, orb_true_r; auto|rewrite orb_false_r; auto]. }
        rewrite count_or.
        2: { intros r E1. apply Nat.eqb_eq in E1. destruct (h r) eqn:E0; auto. apply Hh in E0. lia. }
        f_equal. unfold hits. apply Permutation_length, NoDup_Permutation; [apply NoDup_filter; auto|apply NoDup_filter, seq_NoDup|].
        intros r. rewrite !filter_In, in_seq. unfold h. rewrite (andb_true_iff (memb r u)), memb_In. split; [intros [H1 H2]; specialize (Hu r H1); split; auto; lia|tauto].
      * destruct (Hrow r b' Eb' Hr) as (b & Eb & ->). unfold rep' in Er. destruct (h r) eqn:E0; [lia|].
        assert (Ew : r_weight (if hit mb i u r b then dropped y i a r b else b) = r_weight b).
        { unfold dropped. destruct (hit mb i u r b), (ysame y i r), (r_gone a); reflexivity. }
        rewrite Ew, (kr_weight _ _ _ K r b Eb Er). f_equal. apply filter_ext. intros r'. unfold rep'. destruct (h r') eqn:E1; auto.
        pose proof E1 as E2. apply Hh in E1. destruct E1 as (_ & -> & _). destruct (Nat.eqb_spec r' r) as [->|]; [|symmetry; apply Nat.eqb_neq; auto].
        exfalso. revert E0 E2. destruct (h r); congruence.
    + intros r Hr. unfold rep'. destruct (h r); [right; lia|]. destruct (kr_done _ _ _ K r Hr); auto.
    + intros r b0 b' Eb0 Eb' Hg. destruct (Nat.eq_dec r i) as [->|Hr].
      * rewrite W in Eb'. injection Eb' as <-. destruct (weigh_flags (length (hits y mb i rows u)) a) as (-> & _ & _). eapply (kr_gone0 _ _ _ K); eauto.
      * destruct (Hrow r b' Eb' Hr) as (b & Eb & ->). assert (Hb : r_gone b = true) by (eapply (kr_gone0 _ _ _ K); eauto).
        unfold dropped. destruct (hit mb i u r b), (ysame y i r), (r_gone a); cbn; auto.
    + intros r b0 b' Eb0 Eb' Hg.
      assert (Old : forall b, nth_error rows r = Some b -> r_gone b = true -> r_gone b0 = true \/
        exists r' b', r' < r /\ r' < Datatypes.S i /\ nth_error rows' r' = Some b' /\ r_gone b' = false /\ mb r' r = true).
      { intros b Eb Hb. destruct (kr_gone _ _ _ K r b0 b Eb0 Eb Hb) as [?|(r' & c & H1 & H2 & H3 & H4 & H5)]; [auto|]. right. exists r', c. split; auto. split; auto.
        split; auto. rewrite (O r' c) by (auto; lia). unfold hit. destruct (memb r' u) eqn:Em; auto. apply memb_In, Hu in Em. lia. }
      destruct (Nat.eq_dec r i) as [->|Hr].
      * rewrite W in Eb'. injection Eb' as <-. destruct (weigh_flags (length (hits y mb i rows u)) a) as (H1 & _ & _). apply (Old a Ea). congruence.
      * destruct (Hrow r b' Eb' Hr) as (b & Eb & ->). destruct (r_gone b) eqn:Ebg; [apply (Old b); auto|].
        destruct (hit mb i u r b) eqn:Eh; [|congruence]. unfold hit in Eh. rewrite !andb_true_iff, memb_In in Eh. destruct Eh as (H1 & H2 & H3).
        right. exists i, (weigh (length (hits y mb i rows u)) a). split; [apply Hu; auto|]. split; auto. split; auto. split; auto.
        destruct (weigh_flags (length (hits y mb i rows u)) a) as (-> & _ & _). destruct (r_gone a) eqn:Ega; auto. unfold dropped in Hg. rewrite Ega in Hg.
        destruct (ysame y i r); cbn in Hg; congruence.
  - intros G Sg. split.
    + intros r b' Eb' Eg'. destruct (Nat.eq_dec r i) as [->|Hr].
      * rewrite W in Eb'. injection Eb' as <-. destruct (weigh_flags (length (hits y mb i rows u)) a) as (_ & H2 & _). congruence.
      * destruct (Hrow r b' Eb' Hr) as (b & Eb & ->). destruct (hit mb i u r b) eqn:Eh; [|apply (Sg r); auto].
        unfold hit in Eh. rewrite !andb_true_iff, memb_In, negb_true_iff in Eh. destruct Eh as (H1 & H2 & H3).
        unfold dropped. destruct (r_gone a) eqn:Ega; [|destruct (ysame y i r); reflexivity].
        assert (r_gone b = true) by (apply (G i r a b); auto; specialize (Hu r H1); lia). destruct (ysame y i r); auto.
    + destruct V as [->|V]; [left|right; exact V]. rewrite app_nil_r in Eu.
      intros r r' b1 b1' Hr Hr' Eb1 Eb1' Hm Hg Hs.
      destruct (Hrow r b1 Eb1) as (b & Eb & ->); [lia|]. destruct (Hrow r' b1' Eb1') as (b' & Eb' & ->); [lia|].
      assert (Hs' : r_gone_sp b' = false) by (rewrite (Hsp r' b' Eb') in Hs; apply orb_false_iff in Hs; tauto).
      assert (Hkeep : forall r b, r_gone b = true -> r_gone (if hit mb i u r b then dropped y i a r b else b) = true).
      { intros q c Hc. unfold dropped. destruct (hit mb i u q c), (ysame y i q), (r_gone a); cbn; auto. }
      destruct (r_gone b) eqn:Ebg.
      * apply Hkeep. apply (G r r' b b'); auto; lia.
      * destruct (hit mb i u r b) eqn:Eh; [|congruence]. unfold hit in Eh. rewrite !andb_true_iff, memb_In in Eh. destruct Eh as (H1 & H2 & H3).
        assert (Hlt : r < n /\ r' < n) by (split; rewrite <- L; apply nth_error_Some; congruence).
        assert (Hm' : mb i r' = true) by (apply (mb_trans i r r'); auto; try tauto; lia).
        assert (Hin : In r' u) by (rewrite <- Eu; apply in_seq; lia). apply memb_In in Hin.
        unfold hit. rewrite Hin, Hs', Hm'. cbn [negb andb]. unfold dropped in *. destruct (r_gone a) eqn:Ega.
        -- destruct (ysame y i r); cbn in Hg; congruence.
        -- destruct (ysame y i r'); reflexivity.
Qed.

Lemma outer_ok : forall m i rep rows k, i + m = n -> kept_rows i rep rows ->
  exists rows' k' rep', outer_loop ns y time_limit clk t0 (seq i m) rows k = Ok (rows', k') /\ kept_rows n rep' rows' /\
    ((forall j k, j <= k -> (clk j <= clk k)%Q) -> sp_gone rows ->
     gone_together i rows \/ (exists j, j < k /\ late time_limit clk t0 j = true) -> sp_gone rows').
Proof.
  assert (Up : forall i rep rows, i <= n -> kept_rows i rep rows -> kept_rows n rep rows).
  { intros i rep rows Hi [K1 K2 K3 K4 K5 K6 K7 K8 K9 K10]. constructor; auto.
    - intros r Hr. destruct (K8 r Hr); auto. right. lia.
    - intros r b0 b E1 E2 Hg. destruct (K10 r b0 b E1 E2 Hg) as [?|(r' & b' & H1 & H2 & H3)]; auto. right. exists r', b'. split; auto. split; auto. lia. }
  induction m as [|m IH]; intros i rep rows k Hm K; cbn [seq outer_loop].
  - exists rows, k, rep. split; auto. split; auto. eapply Up; [|exact K]. lia.
  - destruct (late time_limit clk t0 k) eqn:El.
    { exists rows, (ticked time_limit k), rep. split; auto. split; auto. eapply Up; [|exact K]. lia. }
    assert (Late : (forall j k, j <= k -> (clk j <= clk k)%Q) -> ~ exists j, j < k /\ late time_limit clk t0 j = true).
    { intros Mono (j & Hj & Lj). unfold late in *. apply andb_true_iff in Lj. destruct Lj as [L1 L2]. rewrite L1 in El. cbn [andb] in El.
      apply Qltb_true in L2. apply Qltb_false in El. pose proof (Mono j k). assert (clk j <= clk k)%Q by (apply Mono; lia). lra. }
    destruct (row_at rows0 rows i (kr_st _ _ _ K)) as (a0 & a & _ & Ea & _); [fold n; lia|]. rewrite (getitem_nth _ _ _ Ea). cbn [bind].
    destruct (r_gone_sp a) eqn:Eg.
    + destruct (IH (S i) rep rows (ticked time_limit k)) as (rows' & k' & rep' & E & K' & G); [lia| |].
      { destruct K as [K1 K2 K3 K4 K5 K6 K7 K8 K9 K10]. constructor; auto.
        - intros r Hr. destruct (K8 r Hr); auto.
        - intros r b0 b F1 F2 Hg. destruct (K10 r b0 b F1 F2 Hg) as [?|(r' & b' & H1 & H2 & H3)]; auto. right. exists r', b'. split; auto. }
      exists rows', k', rep'. split; auto. split; auto. intros Mono Sg [Hg|Hl]; [|exfalso; exact (Late Mono Hl)]. apply G; auto. left.
      intros r r' b b' H1 H2. apply Hg; lia.
    + destruct (outer_step i rep rows (ticked time_limit k) a) as (rows1 & k1 & rep1 & E1 & Hk & K1 & G1); auto; [lia|].
      rewrite E1. cbn [bind]. destruct (IH (S i) rep1 rows1 k1) as (rows' & k' & rep' & E & K' & G); [lia|exact K1|].
      exists rows', k', rep'. split; auto. split; auto. intros Mono Sg [Hg|Hl]; [|exfalso; exact (Late Mono Hl)].
      destruct (G1 Hg Sg) as [Sg1 Hg1]. apply G; auto.
Qed.

(** Without a look at the clock that comes too late, no two rows below [i] that should be merged are left. *)
Definition separated (i : nat) (rows : list row) : Prop :=
  forall r r' b b', r < i -> r < r' -> nth_error rows r = Some b -> nth_error rows r' = Some b' -> mb r r' = true ->
    (ysame y r r' = true -> r_gone_sp b = false -> r_gone_sp b' = true) /\ (r_gone b = false -> r_gone b' = true).

Lemma outer_step_separated i rep rows k a rows' k' : (forall k, late time_limit clk t0 k = false) -> i < n -> kept_rows i rep rows ->
  nth_error rows i = Some a -> r_gone_sp a = false -> sp_gone rows -> separated i rows ->
  inner_loop ns y time_limit clk t0 i (seq (i + 1) (length rows - (i + 1))) rows k = Ok (rows', k') -> separated (S i) rows'.
Proof.
  intros NL Hi K Ea Eg Sg Sep Er. pose proof (kr_st _ _ _ K) as S. assert (L : length rows = n) by apply S.
  destruct (inner_ok ns y time_limit clk t0 rows0 mb Hmb Hy i (seq (i + 1) (length rows - (i + 1))) rows k a S Hi Ea) as
    (u & v & rows1 & k1 & Eu & E & Kk & V & S' & W & O).
  { apply seq_NoDup. } { rewrite in_seq. lia. } { apply Forall_forall. intros r. rewrite in_seq. lia. }
  rewrite Er in E. injection E as <- <-.
  destruct V as [->|(j & _ & Lj)]; [|rewrite NL in Lj; discriminate]. rewrite app_nil_r in Eu.
  assert (Hu : forall r, memb r u = true <-> i < r < n) by (intros r; rewrite memb_In, <- Eu, in_seq; lia).
  assert (Hrow : forall r b', nth_error rows' r = Some b' -> r <> i -> exists b, nth_error rows r = Some b /\ b' = if hit mb i u r b then dropped y i a r b else b).
  { intros r b' Eb' Hr. destruct (nth_error_some_lt rows r) as [b Eb].
    { assert (r < length rows') by (apply nth_error_Some; congruence). destruct S' as [S' _]. lia. }
    exists b. split; auto. rewrite (O r b Hr Eb) in Eb'. congruence. }
  destruct (weigh_flags (length (hits y mb i rows u)) a) as (W1 & W2 & _).
  intros r r' b b' Hr Hrr Eb Eb' Hm. assert (Hlt : r' < n).
  { destruct S' as [L' _]. assert (r' < length rows') by (apply nth_error_Some; congruence). unfold n in *. lia. }
  destruct (Nat.eq_dec r i) as [->|Hne].
  - rewrite W in Eb. injection Eb as <-. rewrite W1, W2. destruct (Hrow r' b' Eb') as (c & Ec & ->); [lia|].
    unfold hit. rewrite (proj2 (Hu r')), Hm by lia. destruct (r_gone_sp c) eqn:Ec1; cbn [negb andb].
    + split; auto. intros _. apply (Sg r' c); auto.
    + unfold dropped. split.
      * intros ->. reflexivity.
      * intros ->. destruct (ysame y i r'); reflexivity.
  - assert (Hri : r < i) by lia. destruct (Hrow r b Eb) as (c & Ec & Eq); [lia|].
    assert (Hh : hit mb i u r c = false) by (unfold hit; destruct (memb r u) eqn:Em; auto; apply Hu in Em; lia). rewrite Hh in Eq. subst b.
    destruct (Nat.eq_dec r' i) as [->|Hne'].
    + rewrite W in Eb'. injection Eb' as <-. rewrite W1, W2. apply (Sep r i c a); auto.
    + destruct (Hrow r' b' Eb') as (c' & Ec' & ->); [lia|]. destruct (Sep r r' c c' Hri Hrr Ec Ec' Hm) as [H1 H2].
      destruct (hit mb i u r' c'); [|split; auto]. unfold dropped. split; intros; destruct (ysame y i r'), (r_gone a); cbn [gone gone_sp r_gone r_gone_sp]; auto.
Qed.

Lemma outer_complete : (forall k, late time_limit clk t0 k = false) -> forall m i rep rows k rows' k', i + m = n -> kept_rows i rep rows ->
  gone_together i rows -> sp_gone rows -> separated i rows -> outer_loop ns y time_limit clk t0 (seq i m) rows k = Ok (rows', k') -> separated n rows'.
Proof.
  intros NL. induction m as [|m IH]; intros i rep rows k rows' k' Hm K G Sg Sep; cbn [seq outer_loop].
  - intros E. injection E as <- <-. replace n with i by lia. exact Sep.
  - rewrite NL. destruct (row_at rows0 rows i (kr_st _ _ _ K)) as (a0 & a & _ & Ea & _); [fold n; lia|]. rewrite (getitem_nth _ _ _ Ea). cbn [bind].
    destruct (r_gone_sp a) eqn:Eg.
    + apply (IH (S i) rep); [lia| | |exact Sg|].
      * destruct K as [K1 K2 K3 K4 K5 K6 K7 K8 K9 K10]. constructor; auto.
        -- intros r Hr. destruct (K8 r Hr); auto.
        -- intros r b0 b F1 F2 Hg. destruct (K10 r b0 b F1 F2 Hg) as [?|(r' & b' & H1 & H2 & H3)]; auto. right. exists r', b'. split; auto.
      * intros r r' b b' H1 H2. apply G; lia.
      * intros r r' b b' Hr Hrr Eb Eb' Hmb'. destruct (Nat.eq_dec r i) as [->|]; [|apply (Sep r r'); auto; lia].
        assert (b = a) by congruence. subst b. split; [congruence|]. intros Hg. rewrite (Sg i a Ea Eg) in Hg. discriminate.
    + destruct (outer_step i rep rows (ticked time_limit k) a) as (rows1 & k1 & rep1 & E1 & Hk & K1 & G1); auto; [lia|].
      rewrite E1. cbn [bind]. destruct (G1 G Sg) as [Sg1 [G1'|(j & _ & Lj)]]; [|rewrite NL in Lj; discriminate].
      apply (IH (S i) rep1); auto; [lia|]. eapply (outer_step_separated i rep rows); eauto. lia.
Qed.

(** Counting rows through their representatives. *)
Lemma rep_count rep (P : nat -> bool) : forall l, (forall r, In r l -> rep r < n) ->
  length (filter P l) = nsum (fun k => length (filter (fun r => P r && (rep r =? k)) l)) (seq 0 n).
Proof.
  induction l as [|r l IH]; intros H.
  - symmetry. apply nsum_zero. reflexivity.
  - assert (Hr : rep r < n) by (apply H; left; auto). specialize (IH (fun r' Hr' => H r' (or_intror Hr'))). cbn [filter].
    destruct (P r) eqn:E; cbn [andb length]; [|exact IH].
    rewrite IH. assert (E1 : 1 = nsum (fun k => if rep r =? k then 1 else 0) (seq 0 n)).
    { rewrite <- nsum_filter_length. assert (Pm : Permutation (filter (Nat.eqb (rep r)) (seq 0 n)) [rep r]).
      { apply NoDup_Permutation; [apply NoDup_filter, seq_NoDup|repeat constructor; auto|]. intros k. rewrite filter_In, in_seq, Nat.eqb_eq. cbn. intuition lia. }
      rewrite (Permutation_length Pm). reflexivity. }
    rewrite <- Nat.add_1_r, E1 at 1. rewrite <- nsum_plus. apply nsum_ext. intros k _. destruct (rep r =? k); cbn [length]; lia.
Qed.
Lemma kept_total i rep rows (P : nat -> bool) (w : nat -> nat) : kept_rows i rep rows -> (forall r, r < n -> P (rep r) = P r) ->
  (forall r b, nth_error rows r = Some b -> w r = r_weight b) ->
  nsum w (filter (fun r => negb (spb rows r) && P r) (seq 0 n)) = length (filter P (seq 0 n)).
Proof.
  intros K HP Hw. rewrite (rep_count rep P).
  2: { intros r Hr. apply in_seq in Hr. pose proof (kr_le _ _ _ K r). lia. }
  assert (F : forall l, nsum w (filter (fun r => negb (spb rows r) && P r) l) = nsum (fun k => if negb (spb rows k) && P k then w k else 0) l).
  { induction l as [|k l IH]; [reflexivity|]. cbn [filter]. unfold nsum at 2. cbn [fold_right]. fold (nsum (fun k => if negb (spb rows k) && P k then w k else 0) l).
    destruct (negb (spb rows k) && P k); [|exact IH]. unfold nsum at 1. cbn [fold_right]. fold (nsum w (filter (fun r => negb (spb rows r) && P r) l)). rewrite IH. reflexivity. }
  rewrite F. apply nsum_ext. intros k Hk. apply in_seq in Hk. destruct (nth_error_some_lt rows k) as [b Eb]; [rewrite (proj1 (kr_st _ _ _ K)); fold n; lia|].
  assert (Hz : rep k <> k \/ P k = false -> length (filter (fun r => P r && (rep r =? k)) (seq 0 n)) = 0).
  { intros Hc. rewrite nsum_filter_length. apply nsum_zero. intros r Hr. apply in_seq in Hr. destruct (P r) eqn:E1; auto. destruct (Nat.eqb_spec (rep r) k) as [E2|]; auto.
    exfalso. destruct Hc as [Hc|Hc].
    - apply Hc. rewrite <- E2. apply (kr_rep _ _ _ K). lia.
    - rewrite <- E2, HP in Hc by lia. congruence. }
  unfold spb. rewrite Eb. pose proof (kr_sp _ _ _ K k b Eb) as Hs. destruct (r_gone_sp b) eqn:Es; cbn [negb andb].
  - symmetry. apply Hz. left. intros E. apply Hs in E. discriminate.
  - assert (Ek : rep k = k) by (apply Hs; auto). destruct (P k) eqn:E1.
    + rewrite (Hw k b Eb), (kr_weight _ _ _ K k b Eb Ek). f_equal. apply filter_ext_in. intros r Hr. apply in_seq in Hr. destruct (Nat.eqb_spec (rep r) k) as [E2|].
      * rewrite andb_true_r, <- HP, E2, E1 by lia. reflexivity.
      * rewrite andb_false_r. reflexivity.
    + symmetry. apply Hz. auto.
Qed.
End Outer.

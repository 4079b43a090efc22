(** C77: aggressive preprocessing of the experiment script merges completely unless the time limit stops it. *)
From Verif Require Import Base Lp LpProofs FitModel TreeModel SpecTree TreeGeoProofs TreePathProofs TreeLpBuild TreeInvProofs TreeFormProofs
  TreeBuildProofs SpecTreeRun TreeRunProofs SpecTreeLp TreeLpProofs TreeReachProofs ExpModel SpecExp SpecRows ExpRowProofs ExpQuadProofs ExpPreprocessProofs
  TreeAggrProofs RowsProofs SpecTreePrice PropTreeMaster PropTreeLp PropExpRows TreeCheck TreePricingModel TreeFitModel ExpMainModel SpecPrep SpecMain
  SpecTreeTrain PrepPathsProofs PrepProofs PrepTrainProofs ExpCartProofs ExpCheck MainProofs PropTreeTrain PropPrep PropMain SpecQuad.
Open Scope nat_scope.

Lemma never_late limit clk : uninterrupted limit clk -> forall k, late limit clk (clk 0) k = false.
Proof.
  intros H k. unfold late. destruct (Qltb 0 limit) eqn:E; [|reflexivity]. cbn [andb]. apply Qltb_true in E.
  destruct (Qltb limit (clk k - clk 0)) eqn:E1; auto. apply Qltb_true in E1. destruct H as [H|H]; [|specialize (H k)]; lra.
Qed.
Lemma same_way_trans d X nodes splits i j k : same_way d X nodes splits i j -> same_way d X nodes splits j k -> same_way d X nodes splits i k.
Proof. intros H1 H2 p T U. rewrite (H1 p T U). apply H2; auto. Qed.
Lemma same_way_sym d X nodes splits i j : same_way d X nodes splits i j -> same_way d X nodes splits j i.
Proof. intros H p T U. symmetry. apply H; auto. Qed.

(** A row is kept for pricing iff no earlier row of its class follows the same paths; its weight is the number of rows of its
    class that follow the same paths; it has its constraint in the master problem iff it can reach more than two leaves and no
    earlier row follows the same paths. *)
Theorem C77_complete : forall u limit clk u' r, valid_setup u -> valid_data u -> fresh_nodes u -> Forall (fun n => n_cands n <> []) (su_nodes u) ->
  uninterrupted limit clk -> preprocessed u true limit clk u' -> r < length (su_X u) ->
  let alike_rows := same_way (su_depth u) (su_X u) (su_nodes u) (su_splits u) in
  (active u' r <-> forall r', r' < r -> nth_error (su_y u) r' = nth_error (su_y u) r -> ~ alike_rows r' r) /\
  (active u' r -> forall rs, NoDup rs ->
     (forall r', In r' rs <-> r' < length (su_X u) /\ nth_error (su_y u) r' = nth_error (su_y u) r /\ alike_rows r r') -> row_weight u' r = length rs) /\
  (in_master u' r <-> ~ few_leaves (su_depth u) (su_X u) (su_nodes u) (su_splits u) r /\ forall r', r' < r -> ~ alike_rows r' r).
Proof.
  intros u limit clk u' r V D Hf Hc U P Hr alike_rows. pose proof (never_late _ _ U) as NL.
  destruct V as (W & _). destruct D as (Hy & _). destruct P as (nodes & rows & E & ->).
  destruct (preprocess_ok _ _ _ _ _ W Hy Hf true limit clk) as (rows' & rep & E' & L & _ & Hrep & Hsp & Htot & Hfew & Hgone & _ & Hrec & Hsep).
  rewrite E in E'. injection E' as -> ->. specialize (Hsep eq_refl NL). fold alike_rows in Hrep, Hgone. rename rows' into rows.
  pose proof (wt_depth _ _ _ _ W) as Hd. pose proof (wt_nodes _ _ _ _ W) as Hn.
  assert (Row : forall i, i < length (su_X u) -> exists b, nth_error rows i = Some b) by (intros i Hi; apply nth_error_some_lt; lia).
  assert (Alk : forall i j a b, nth_error rows i = Some a -> nth_error rows j = Some b -> alike_rows i j -> alike (su_depth u) (su_nodes u) (r_left a) (r_left b)).
  { intros i j a b Ea Eb Hij. destruct (Hrec i a Ea) as ((x & Ex & HL & _) & _). destruct (Hrec j b Eb) as ((x' & Ex' & HL' & _) & _).
    apply (same_way_alike (su_depth u) (su_nodes u) (su_splits u) Hd Hn) with (X := su_X u) (i := i) (j := j) (xi := x) (xj := x'); auto.
    - intros m Hm. apply (wt_cands _ _ _ _ W m Hm).
    - rewrite Forall_forall in Hc. exact Hc.
    - intros k. apply left_memb; auto.
    - intros k. apply left_memb; auto. }
  assert (Sep : forall i j a b, i < j -> nth_error rows i = Some a -> nth_error rows j = Some b -> alike_rows i j ->
    (nth_error (su_y u) i = nth_error (su_y u) j -> r_gone_sp a = false -> r_gone_sp b = true) /\ (r_gone a = false -> r_gone b = true)).
  { intros i j a b Hij Ea Eb S. eapply Hsep; eauto. }
  assert (Uniq : forall i j, i < length (su_X u) -> j < length (su_X u) -> nth_error (su_y u) i = nth_error (su_y u) j -> alike_rows i j -> rep i = rep j).
  { intros i j Hi Hj Ey S. destruct (Hrep i Hi) as (A1 & A2 & A3 & A4). destruct (Hrep j Hj) as (B1 & B2 & B3 & B4).
    destruct (Row (rep i)) as [a Ea]; [lia|]. destruct (Row (rep j)) as [b Eb]; [lia|].
    assert (Ga : r_gone_sp a = false) by (apply (Hsp _ _ Ea); auto). assert (Gb : r_gone_sp b = false) by (apply (Hsp _ _ Eb); auto).
    assert (S1 : alike_rows (rep i) (rep j)) by (eapply same_way_trans; [exact A4|]; eapply same_way_trans; [exact S|]; apply same_way_sym; exact B4).
    destruct (Nat.lt_trichotomy (rep i) (rep j)) as [Hl|[Hl|Hl]]; auto; exfalso.
    - destruct (Sep (rep i) (rep j) a b Hl Ea Eb S1) as [H _]. rewrite H in Gb; [discriminate|congruence|auto].
    - destruct (Sep (rep j) (rep i) b a Hl Eb Ea (same_way_sym _ _ _ _ _ _ S1)) as [H _]. rewrite H in Ga; [discriminate|congruence|auto]. }
  destruct (Row r Hr) as [b Eb].
  assert (Act : active (mkSetup (su_depth u) (su_X u) (su_y u) (map (preprocess_node (su_depth u)) (su_nodes u)) (su_splits u) (su_paths u) (su_beta u) (su_gen u)
      (su_rounds u) (Some rows)) r <-> rep r = r).
  { unfold active. cbn [su_rows]. rewrite <- (Hsp r b Eb). split; [intros (b' & E1 & E2); congruence|eauto]. }
  split; [|split].
  - rewrite Act. split.
    + intros Er r' Hlt Ey S. pose proof (Uniq r' r ltac:(lia) Hr Ey S) as H. destruct (Hrep r' ltac:(lia)) as (H1 & _). lia.
    + intros H. destruct (Hrep r Hr) as (A1 & A2 & A3 & A4). destruct (Nat.eq_dec (rep r) r) as [?|Hne]; auto. exfalso. apply (H (rep r)); auto. lia.
  - rewrite Act. intros Er rs N Hrs. cbn [su_rows row_weight]. unfold row_weight. cbn [su_rows]. rewrite Eb.
    pose proof (Htot (fun r' => rep r' =? r) (fun r => match nth_error rows r with Some b => r_weight b | None => 0 end)) as T.
    assert (E1 : filter (fun r' => negb (spb rows r') && (rep r' =? r)) (seq 0 (length (su_X u))) = filter (fun r' => r' =? r) (seq 0 (length (su_X u)))).
    { apply filter_ext_in. intros r' Hr'. apply in_seq in Hr'. destruct (Row r') as [b' Eb']; [lia|]. unfold spb. rewrite Eb'. pose proof (Hsp r' b' Eb') as Hs.
      destruct (Nat.eqb_spec r' r) as [->|Hne].
      - rewrite Er, Nat.eqb_refl. apply Hs in Er. rewrite Er. reflexivity.
      - destruct (Nat.eqb_spec (rep r') r) as [E2|]; [|apply andb_false_r]. destruct (r_gone_sp b'); auto. exfalso. apply Hne. rewrite <- E2. symmetry. apply Hs. auto. }
    cbv beta in T. rewrite E1 in T. assert (P1 : Permutation (filter (fun r' => r' =? r) (seq 0 (length (su_X u)))) [r]).
    { apply NoDup_Permutation; [apply NoDup_filter, seq_NoDup|repeat constructor; auto|]. intros k. rewrite filter_In, in_seq, Nat.eqb_eq. cbn. intuition lia. }
    rewrite (nsum_perm _ _ _ P1) in T. unfold nsum in T. cbn [fold_right map] in T. rewrite Eb, Nat.add_0_r in T. rewrite T.
    + apply Permutation_length, NoDup_Permutation; auto; [apply NoDup_filter, seq_NoDup|]. intros r'. rewrite filter_In, in_seq, Nat.eqb_eq, Hrs. split.
      * intros [H1 H2]. assert (H3 : r' < length (su_X u)) by lia. destruct (Hrep r' H3) as (_ & _ & A3 & A4). rewrite H2 in A3, A4. auto.
      * intros (H1 & H2 & H3). split; [lia|]. rewrite <- Er. symmetry. apply Uniq; auto. 
    + intros r' Hr'. destruct (Hrep r' Hr') as (_ & -> & _). reflexivity.
    + intros r' b' ->. reflexivity.
  - unfold in_master. cbn [su_rows].
    assert (G : r_gone b = true <-> few_leaves (su_depth u) (su_X u) (su_nodes u) (su_splits u) r \/ exists r', r' < r /\ alike_rows r' r).
    { split.
      - intros G. destruct (Hgone r b Eb G) as [?|(r' & b' & H1 & _ & _ & H2)]; eauto.
      - intros [H|(r' & Hlt & S)]; [eauto|]. destruct (Row r') as [b' Eb']; [lia|]. destruct (Sep r' r b' b Hlt Eb' Eb S) as [_ H].
        destruct (r_gone b') eqn:G'; [|auto]. destruct (Hgone r' b' Eb' G') as [F|(r2 & b2 & H1 & E2 & G2 & S2)].
        + apply (Hfew r b Eb). destruct (Hrec r' b' Eb') as ((x' & Ex' & HL' & HR') & Rx'). destruct (Hrec r b Eb) as ((x & Ex & HL & HR) & Rx).
          pose proof (described _ (su_X u) _ _ W Hf u x' b' eq_refl eq_refl eq_refl HL' HR' Rx') as Ds'.
          pose proof (described _ (su_X u) _ _ W Hf u x b eq_refl eq_refl eq_refl HL HR Rx) as Ds.
          destruct F as (x'' & R & Ex'' & HR2 & Hall). assert (x'' = x') by congruence. subst x''.
          assert (Le : length (r_leaves b') <= length R) by (apply NoDup_incl_length; [apply (ds_distinct _ _ _ Ds')|intros l Hl; apply Hall, (ds_leaves _ _ _ Ds'); auto]).
          pose proof (alike_leaves (su_depth u) (su_nodes u) Hd Hn (bottom_none _ _ Hf) _ _ _ _ _ _ (Alk r' r b' b Eb' Eb S) Rx' Rx) as Eq.
          exists x, (r_leaves b). split; auto. split; [lia|]. intros l Hl. apply (ds_leaves _ _ _ Ds). auto.
        + destruct (Sep r2 r b2 b) as [_ H3]; auto; [lia|]. eapply same_way_trans; eauto. }
    split.
    + intros (b1 & E1 & G1). assert (b1 = b) by congruence. subst b1. split.
      * intros F. rewrite (proj2 G) in G1 by auto. discriminate.
      * intros r' Hlt S. rewrite (proj2 G) in G1 by eauto. discriminate.
    + intros [H1 H2]. exists b. split; auto. destruct (r_gone b) eqn:Eg; auto. destruct (proj1 G eq_refl) as [?|(r' & ? & ?)]; [tauto|exfalso; eapply H2; eauto].
Qed.
Print Assumptions C77_complete.

(** * The clock *)

Lemma inner_same ns y l clk t0 l' clk' t0' r1 : (forall k, late l clk t0 k = false) -> (forall k, late l' clk' t0' k = false) -> forall rs rows k k',
  match inner_loop ns y l clk t0 r1 rs rows k, inner_loop ns y l' clk' t0' r1 rs rows k' with Ok a, Ok b => fst a = fst b | Err e, Err e' => e = e' | _, _ => False end.
Proof.
  intros N N'. induction rs as [|r2 rs IH]; intros rows k k'; cbn [inner_loop]; [reflexivity|]. rewrite N, N'. destruct (getitem rows r2) as [b|]; cbn [bind]; [|reflexivity].
  destruct (r_gone_sp b); [apply IH|]. destruct (getitem rows r1) as [a|]; cbn [bind]; [|reflexivity]. destruct (rows_match ns a b) as [m|]; cbn [bind]; [|reflexivity].
  destruct m; [|apply IH]. destruct (drop_row y r1 r2 rows); cbn [bind]; [apply IH|reflexivity].
Qed.
Lemma outer_same ns y l clk t0 l' clk' t0' : (forall k, late l clk t0 k = false) -> (forall k, late l' clk' t0' k = false) -> forall rs rows k k',
  match outer_loop ns y l clk t0 rs rows k, outer_loop ns y l' clk' t0' rs rows k' with Ok a, Ok b => fst a = fst b | Err e, Err e' => e = e' | _, _ => False end.
Proof.
  intros N N'. induction rs as [|r1 rs IH]; intros rows k k'; cbn [outer_loop]; [reflexivity|]. rewrite N, N'. destruct (getitem rows r1) as [a|]; cbn [bind]; [|reflexivity].
  destruct (r_gone_sp a); [apply IH|]. pose proof (inner_same ns y l clk t0 l' clk' t0' r1 N N' (seq (r1 + 1) (length rows - (r1 + 1))) rows (ticked l k) (ticked l' k')) as H.
  destruct (inner_loop ns y l clk t0 _ _ _ _) as [[rows1 k1]|], (inner_loop ns y l' clk' t0' _ _ _ _) as [[rows2 k2]|]; cbn [bind fst] in *; try contradiction; [subst; apply IH|exact H].
Qed.

(** Uninterrupted preprocessing does not depend on the limit or the clock. *)
Theorem C77_clock_free : forall nodes splits X y d limit clk limit' clk', uninterrupted limit clk -> uninterrupted limit' clk' ->
  preprocess nodes splits X y d true limit clk = preprocess nodes splits X y d true limit' clk'.
Proof.
  intros nodes splits X y d limit clk limit' clk' U U'. unfold preprocess. destruct (map_res _ _) as [rows|]; cbn [bind]; [|reflexivity]. destruct (length X =? 0); [reflexivity|].
  pose proof (outer_same (preprocess_nodes d nodes) y limit clk (clk 0) limit' clk' (clk' 0) (never_late _ _ U) (never_late _ _ U') (seq 0 (length X)) rows 1 1) as H.
  destruct (outer_loop _ y limit clk _ _ _ _) as [[rows1 k1]|], (outer_loop _ y limit' clk' _ _ _ _) as [[rows2 k2]|]; cbn [bind fst] in *; try contradiction; congruence.
Qed.
Print Assumptions C77_clock_free.

(** If the first look at the clock comes too late nothing is merged. *)
Theorem C77_no_time : forall nodes splits X y d limit clk, (0 < limit)%Q -> (limit < clk 1%nat - clk 0%nat)%Q ->
  preprocess nodes splits X y d true limit clk = preprocess nodes splits X y d false limit clk.
Proof.
  intros nodes splits X y d limit clk H1 H2. unfold preprocess. destruct (map_res _ _) as [rows|]; cbn [bind]; [|reflexivity]. destruct (Nat.eqb_spec (length X) 0); [reflexivity|].
  destruct (length X) as [|n']; [congruence|]. cbn [seq outer_loop]. unfold late. apply Qltb_true in H1, H2. rewrite H1, H2. reflexivity.
Qed.
Print Assumptions C77_no_time.

Lemma not_aggressive nodes splits X y d limit clk limit' clk' : preprocess nodes splits X y d false limit clk = preprocess nodes splits X y d false limit' clk'.
Proof. reflexivity. Qed.

(** * The script *)

Lemma take_count make limit clk : (0 < limit)%Q -> steady clk -> forall n a k cs k', take_trees (seq a n) make limit clk k = (cs, k') ->
  (k' = k + n /\ (n = 0 \/ (clk (k + n - 1)%nat - clk 0%nat <= limit)%Q)) \/ (k' <= k + n /\ 0 < k' /\ k < k' /\ (limit < clk (k' - 1)%nat - clk 0%nat)%Q).
Proof.
  intros Hl Hs. induction n as [|n IH]; intros a k cs k' E; cbn [seq take_trees] in E; [injection E as <- <-; left; split; auto; lia|].
  destruct (over limit clk k) eqn:Eo.
  - injection E as <- <-. apply over_spec in Eo. right. replace (S k - 1) with k by lia. repeat split; try lia. apply Eo.
  - destruct (take_trees (seq (S a) n) make limit clk (tick limit k)) as [cs1 k1] eqn:E1. injection E as <- <-. assert (Ht : tick limit k = S k) by (unfold tick; apply Qltb_true in Hl; rewrite Hl; reflexivity).
    rewrite Ht in E1. assert (Hk : (clk k - clk 0%nat <= limit)%Q).
    { destruct (Qlt_le_dec limit (clk k - clk 0%nat)) as [H|H]; auto. assert (over limit clk k = true) by (apply over_spec; auto). congruence. }
    destruct (IH _ _ _ _ E1) as [(-> & [->|H])|(H1 & H2 & H3 & H4)].
    + left. split; [lia|]. right. replace (k + 1 - 1) with k by lia. exact Hk.
    + left. split; [lia|]. right. replace (k + S n - 1) with (S k + n - 1) by lia. exact H.
    + right. repeat split; auto; lia.
Qed.
Lemma take_free make limit clk : (limit <= 0)%Q -> forall n a k, snd (take_trees (seq a n) make limit clk k) = k.
Proof.
  intros Hl. assert (E : Qltb 0 limit = false) by (apply Qltb_false; exact Hl). induction n as [|n IH]; intros a k; cbn [seq take_trees]; [reflexivity|].
  unfold over, tick. rewrite E. cbn [andb]. specialize (IH (S a) k). destruct (take_trees (seq (S a) n) make limit clk k). exact IH.
Qed.

(** How far preprocessing merges rows depends on the number of rows, on the time that has passed when main looks at the clock for
    the 403rd and the 404th time and on the time preprocessing itself takes.  If the limit is passed between these two looks the
    remaining time is not positive and preprocessing is not limited at all. *)
Theorem C77_script : forall wd o fuel t, script_input wd o -> steady (wd_clock wd) -> train wd o fuel = Done t ->
  exists u, valid_setup u /\ valid_data u /\ fresh_nodes u /\ (splits_kept wd o -> Forall (fun n => n_cands n <> []) (su_nodes u)) /\
    su_X u = wd_X wd /\ su_y u = wd_y wd /\
    let limit := pre_budget o in
    let used := fun k : nat => (wd_clock wd k - wd_clock wd 0%nat)%Q in
    let spent := fun k : nat => (wd_pre_clock wd k - wd_pre_clock wd 0%nat)%Q in
    let merged := fun all : bool => preprocessed u all 0 (fun _ => 0%Q) (fit_setup (td_args t) (wd_X wd) (wd_y wd)) in
    (length (wd_X wd) < large -> merged false) /\
    (large <= length (wd_X wd) ->
       ((limit <= 0)%Q -> merged true) /\
       ((0 < limit)%Q ->
          ((limit < used 403%nat)%Q -> merged false) /\
          ((used 403%nat <= limit <= used 404%nat)%Q -> merged true) /\
          ((used 404%nat < limit)%Q -> (limit < used 404%nat + spent 1%nat)%Q -> merged false) /\
          ((used 404%nat < limit)%Q -> (forall k, used 404%nat + spent k <= limit)%Q -> merged true))).
Proof.
  intros wd o fuel t Si Hs E. unfold train in E. change 5000 with large in E. set (limit := pre_budget o) in *.
  destruct (take_trees (seq 0 300) (wd_first wd) limit (wd_clock wd) 1) as [cs k1] eqn:E1.
  destruct (take_spec _ _ _ _ _ _ _ _ E1) as (n & Hn & Ecs & _ & _).
  destruct (take_trees (seq 0 100) (wd_more wd) limit (wd_clock wd) (k1 + 2)) as [extra k2] eqn:E2.
  destruct (take_spec _ _ _ _ _ _ _ _ E2) as (m & Hm & Eex & _ & _). cbv zeta in E.
  set (ag := ((large <=? length (wd_X wd)) && negb (over limit (wd_clock wd) k2))%bool) in *. set (rest := (limit - (wd_clock wd (tick limit k2) - wd_clock wd 0%nat))%Q) in *.
  destruct (prepare (op_depth o) cs (wd_final wd) extra (wd_X wd) (wd_y wd) ag rest (wd_pre_clock wd)) as [out|] eqn:Eo; [|discriminate E].
  pose proof (script_experiment wd o n m Si) as Ex. rewrite <- Ecs, <- Eex in Ex.
  destruct (prepare_ok _ _ _ _ _ _ Ex ag rest (wd_pre_clock wd)) as (paths & nodes & splits & rows & tree0 & E' & Ep & Oc). rewrite Eo in E'. injection E' as ->.
  cbn [lift obind] in E. set (pre := (wd_clock wd (S (tick limit k2)) - wd_clock wd 0%nat)%Q) in *.
  set (A := mkTargs _ _ _ _ _ _ _ _ _ _ _ _ _) in E. destruct (dtree_init A) as [w0|]; [|discriminate E]. cbn [lift obind] in E.
  destruct (tree_fit _ A _ _ _ fuel _) as [s [[]|e|]]; try discriminate E. injection E as <-. cbn [td_args].
  exists (before (op_depth o) (wd_X wd) (wd_y wd) paths nodes splits 10 true false).
  split; [eapply before_valid; eauto|]. split; [eapply before_data; eauto|]. split; [eapply before_fresh; eauto|]. split.
  { intros Sk. destruct (Sk n m Hn Hm) as [K1 _]. rewrite <- Ecs in K1. pose proof (oc_kept _ _ _ _ _ _ _ _ _ _ Oc K1) as T. apply Forall_forall. intros nd Hnd. apply In_nth_error in Hnd.
    destruct Hnd as [i Ei]. cbn [su_nodes before] in Ei. intros Hc. assert (Hi : i < 2 ^ op_depth o - 1).
    { destruct (wt_nodes _ _ _ _ (oc_wf _ _ _ _ _ _ _ _ _ _ Oc)) as [<- _]. apply nth_error_Some. congruence. }
    pose proof (T i nd Hi Ei) as Hin. rewrite Hc in Hin. destruct Hin. }
  split; [reflexivity|]. split; [reflexivity|]. cbv zeta.
  assert (Pre : preprocessed (before (op_depth o) (wd_X wd) (wd_y wd) paths nodes splits 10 true false) ag rest (wd_pre_clock wd) (fit_setup A (wd_X wd) (wd_y wd))).
  { change A with (the_args (op_depth o) (wd_y wd) paths nodes splits rows (op_iterations o) (budget o - pre)%Q 10 true false false). apply before_pre; auto. }
  assert (KK : (0 < limit)%Q -> k2 = 403 \/ (k2 <= 403 /\ (limit < wd_clock wd k2 - wd_clock wd 0%nat)%Q)).
  { intros Hlim. pose proof (take_count _ _ _ Hlim Hs _ _ _ _ _ E1) as T1. pose proof (take_count _ _ _ Hlim Hs _ _ _ _ _ E2) as T2. clear - T1 T2 Hs.
    destruct T1 as [(-> & _)|(A1 & A2 & A3 & A4)], T2 as [(-> & _)|(B1 & B2 & B3 & B4)]; [left; reflexivity|right|right|right]; (split; [lia|]).
    - pose proof (Hs (k2 - 1) k2 ltac:(lia)). lra.
    - pose proof (Hs (k1 - 1) (k1 + 2 + 100) ltac:(lia)). lra.
    - pose proof (Hs (k2 - 1) k2 ltac:(lia)). lra. }
  clear E1 E2 Eo Ep Oc Ex. generalize dependent (fit_setup A (wd_X wd) (wd_y wd)). intros u' Pre. set (u := before _ _ _ _ _ _ _ _ _) in *.
  assert (Free : uninterrupted 0 (fun _ => 0%Q)) by (left; apply Qle_refl).
  assert (Small : ag = false -> preprocessed u false 0 (fun _ => 0%Q) u') by (intros Ea; rewrite Ea in Pre; exact Pre).
  assert (Full : ag = true -> uninterrupted rest (wd_pre_clock wd) -> preprocessed u true 0 (fun _ => 0%Q) u').
  { intros Ea U. rewrite Ea in Pre. destruct Pre as (ns & rs & E & Eu). exists ns, rs. split; auto. rewrite <- E. apply C77_clock_free; auto. }
  assert (Late : ag = true -> (0 < rest)%Q -> (rest < wd_pre_clock wd 1%nat - wd_pre_clock wd 0%nat)%Q -> preprocessed u false 0 (fun _ => 0%Q) u').
  { intros Ea U1 U2. rewrite Ea in Pre. destruct Pre as (ns & rs & E & Eu). exists ns, rs. split; auto. rewrite <- E, (C77_no_time _ _ _ _ _ _ _ U1 U2). reflexivity. }
  split.
  - intros Hl. apply Small. unfold ag. apply Nat.leb_gt in Hl. rewrite Hl. reflexivity.
  - intros Hl. apply Nat.leb_le in Hl. unfold ag in Small, Full, Late. rewrite Hl in *. cbn [andb] in *. clear Hl. split.
    + intros Hlim. assert (Hz : over limit (wd_clock wd) k2 = false) by (unfold over; apply Qltb_false in Hlim; rewrite Hlim; reflexivity). rewrite Hz in *.
      apply Full; auto. left. unfold rest. pose proof (Hs 0 (tick limit k2) ltac:(lia)). lra.
    + intros Hlim. specialize (KK Hlim). pose proof (Hs 403 404 ltac:(lia)) as H34.
      assert (K2 : (wd_clock wd 403%nat - wd_clock wd 0%nat <= limit)%Q -> over limit (wd_clock wd) k2 = false /\ rest = (limit - (wd_clock wd 404%nat - wd_clock wd 0%nat))%Q).
      { intros H. assert (k2 = 403) as ->.
        { destruct KK as [?|[K1 K2]]; auto. pose proof (Hs k2 403 K1). lra. }
        split; [unfold over; apply Qltb_false in H; rewrite H; apply andb_false_r|]. unfold rest, tick. apply Qltb_true in Hlim. rewrite Hlim. reflexivity. }
      split; [|split; [|split]].
      * intros H. apply Small. assert (Ho : over limit (wd_clock wd) k2 = true) by (apply over_spec; split; [auto|destruct KK as [->|[_ K]]; [exact H|exact K]]). rewrite Ho. reflexivity.
      * intros [H1 H2]. destruct (K2 H1) as [Ho Er]. apply Full; [rewrite Ho; reflexivity|]. left. rewrite Er. lra.
      * intros H1 H2. destruct K2 as [Ho Er]; [lra|]. apply Late; [rewrite Ho; reflexivity| |]; rewrite Er; lra.
      * intros H1 H2. destruct K2 as [Ho Er]; [lra|]. apply Full; [rewrite Ho; reflexivity|]. right. intros k. rewrite Er. specialize (H2 k). lra.
Qed.
Print Assumptions C77_script.

(** * Cases *)

(** The hypotheses of C77_complete hold for the data of C52_case; rows 0, 2, 3 and 5 are kept with weights 2, 1, 2 and 1. *)
Example C77_case : exists u', valid_setup dup_setup /\ valid_data dup_setup /\ fresh_nodes dup_setup /\ Forall (fun n => n_cands n <> []) (su_nodes dup_setup) /\
  uninterrupted 150 (fun _ => 0%Q) /\ preprocessed dup_setup true 150 (fun _ => 0%Q) u' /\
  option_map (map r_gone_sp) (su_rows u') = Some [false; true; false; false; true; false] /\ map (row_weight u') [0; 2; 3; 5] = [2; 1; 2; 1].
Proof.
  destruct C52_case as (nodes & rows & E & Es). eexists. split; [exact dup_valid|]. split; [exact dup_data|]. split; [exact dup_fresh|]. split; [repeat constructor; discriminate|].
  split; [right; intros k; lra|]. split; [exists nodes, rows; split; [exact E|reflexivity]|]. cbn [su_rows option_map].
  do 7 (destruct rows as [|? rows]; [try discriminate Es|]); try discriminate Es. cbn [summary map] in Es. unfold row_weight. cbn [su_rows map nth_error].
  injection Es; intros; split; congruence.
Qed.

(** 2000 copies of three samples.  Main looks at the clock for the 404th time 200 seconds after the start; a look at the clock
    during preprocessing takes 1000000 seconds. *)
Fixpoint copies {A} (n : nat) (l : list A) : list A := match n with O => [] | S n' => l ++ copies n' l end.
Lemma copies_length {A} n (l : list A) : length (copies n l) = n * length l.
Proof. induction n; cbn [copies]; [reflexivity|]. rewrite app_length, IHn. reflexivity. Qed.
Lemma copies_in {A} n (l : list A) a : In a (copies n l) -> In a l.
Proof. induction n; cbn [copies]; [intros []|]. intros H. apply in_app_or in H. tauto. Qed.
Definition many : nat := 50 * 40.
Definition crowd : world :=
  mkWorld (copies many ex1_X) (copies many [0; 1; 1]) [[0]; [3]]%Q [0; 0] (fun _ => stump 0 (1 # 2)) (stump 0 (3 # 2)) (fun i => if i =? 1 then 0 else 1) (fun q => q)
    (fun _ => stump 0 (3 # 2)) (fun k => if k <=? 403 then 0%Q else 200%Q) (fun k => (inject_Z (Z.of_nat k) * 1000000)%Q) (fun k => (inject_Z (Z.of_nat k) / 10)%Q) main_sv.
Definition crowd_options : options := mkOptions 1 (-1) None.
Lemma crowd_input : script_input crowd crowd_options.
Proof.
  assert (Lm : 0 < many) by (unfold many; lia).
  constructor; cbn [wd_X wd_y wd_Xt wd_yt wd_first wd_final wd_more crowd crowd_options op_depth].
  - lia.
  - rewrite copies_length. change (length ex1_X) with 3. cbn [length]. lia.
  - rewrite !copies_length. split; reflexivity.
  - exists 1. split.
    + apply Forall_app. split; [|repeat constructor]. apply Forall_forall. intros x Hx. apply copies_in in Hx. cbn in Hx. intuition (subst; reflexivity).
    + split; [intros; apply stump_for; lia|]. split; [apply stump_for; lia|intros; apply stump_for; lia].
  - exists 0, 0, (3 # 2)%Q. apply stump_tests. auto.
  - assert (Hin : In 0 (copies many [0; 1; 1]) /\ In 1 (copies many [0; 1; 1])) by (destruct many; [lia|]; cbn [copies]; split; apply in_or_app; left; cbn; auto).
    split; [|exists 0, 1; split; [|split]; [apply Hin|apply Hin|discriminate]].
    assert (Hm : list_max (copies many [0; 1; 1]) <= 1) by (apply list_max_le, Forall_forall; intros c Hc; apply copies_in in Hc; cbn in Hc; intuition (subst; lia)).
    intros c Hc. destruct c as [|[|c]]; [apply Hin|apply Hin|lia].
Qed.
Lemma crowd_kept : splits_kept crowd crowd_options.
Proof. intros n m Hn Hm. exact (main_kept (fun _ => 0%Q) (fun _ => 0%Q) None n m Hn Hm). Qed.
Lemma crowd_steady : steady (wd_clock crowd) /\ steady (wd_pre_clock crowd).
Proof.
  split; intros j k H; cbn [wd_clock wd_pre_clock crowd].
  - destruct (Nat.leb_spec j 403), (Nat.leb_spec k 403); try lia; lra.
  - assert (H1 : (inject_Z (Z.of_nat j) <= inject_Z (Z.of_nat k))%Q) by (rewrite <- Zle_Qle; lia). lra.
Qed.

(** The time for preprocessing is 200 seconds.  All of it has passed when preprocessing starts, and every later look at the clock
    shows at least 1000000 seconds more.  Rows are merged all the same: row 3 is removed in favour of row 0. *)
Theorem C77_time_limit_refuted : exists wd o fuel t, script_input wd o /\ splits_kept wd o /\ steady (wd_clock wd) /\ steady (wd_pre_clock wd) /\ always_honest (wd_solvers wd) /\
  pre_budget o = 200%Q /\ (forall k, 404 <= k -> (200 <= wd_clock wd k - wd_clock wd 0%nat)%Q) /\
  (forall k, 1 <= k -> (1000000 <= wd_pre_clock wd k - wd_pre_clock wd 0%nat)%Q) /\ train wd o fuel = Done t /\
  3 < length (wd_X wd) /\ ~ active (fit_setup (td_args t) (wd_X wd) (wd_y wd)) 3.
Proof.
  destruct crowd_steady as [S1 S2].
  destruct (C70_script_returns crowd crowd_options crowd_input crowd_kept S2 (two_honest _ _)) as (fuel & Hf). destruct (Hf fuel (le_n _)) as (t & q & Et & _). clear Hf.
  exists crowd, crowd_options, fuel, t. split; [exact crowd_input|]. split; [exact crowd_kept|]. split; [exact S1|]. split; [exact S2|]. split; [apply two_honest|]. split; [reflexivity|].
  split; [intros k Hk; cbn [wd_clock crowd]; destruct (Nat.leb_spec k 403); [lia|]; change (0 <=? 403) with true; cbv iota; lra|].
  split; [intros k Hk; cbn [wd_pre_clock crowd]; assert (H1 : (1 <= inject_Z (Z.of_nat k))%Q) by (change 1%Q with (inject_Z 1); rewrite <- Zle_Qle; lia);
          change (inject_Z (Z.of_nat 0)) with 0%Q; lra|].
  assert (L : large <= length (wd_X crowd)).
  { cbn [wd_X crowd]. rewrite copies_length. change (length ex1_X) with 3. unfold many. apply Nat.leb_le. vm_compute. reflexivity. }
  assert (L3 : 3 < length (wd_X crowd)) by (cbn [wd_X crowd]; rewrite copies_length; change (length ex1_X) with 3; unfold many; lia). split; [exact Et|]. split; [exact L3|].
  destruct (C77_script crowd crowd_options fuel t crowd_input S1 Et) as (u & V & D & Fr & Hc & EX & Ey & H). destruct H as [_ H]. destruct (H L) as [_ H1]. clear H.
  destruct H1 as (_ & H1 & _); [reflexivity|].
  assert (P : preprocessed u true 0 (fun _ => 0%Q) (fit_setup (td_args t) (wd_X crowd) (wd_y crowd))) by (apply H1; split; vm_compute; discriminate). clear H1.
  rewrite <- EX in L3. destruct (C77_complete u 0 (fun _ => 0%Q) _ 3 V D Fr (Hc crowd_kept) (or_introl (Qle_refl 0)) P L3) as [A _]. rewrite A. intros N.
  apply (N 0); [lia| |].
  - rewrite Ey. reflexivity.
  - intros p _ _. cbn [covers]. rewrite EX. assert (E3 : nth_error (wd_X crowd) 3 = nth_error (wd_X crowd) 0) by reflexivity. rewrite E3. reflexivity.
Qed.
Print Assumptions C77_time_limit_refuted.

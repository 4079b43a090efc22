(** The invariant of the tree master problem; generate_mp establishes it. *)
From Verif Require Import Base Lp LpProofs TreeModel SpecTree TreeGeoProofs TreePathProofs TreeLpBuild TreeBuildProofs TreeGenProofs.
Open Scope nat_scope.

Definition same_core (s t : split) : Prop :=
  s_id s = s_id t /\ s_feature s = s_feature t /\ s_threshold s = s_threshold t /\ s_lrows s = s_lrows t /\ s_rrows s = s_rrows t.
Definition same_node (n m : node) : Prop := n_id n = n_id m /\ n_cands n = n_cands m.

Lemma Forall2_refl {A} (R : A -> A -> Prop) l : (forall a, R a a) -> Forall2 R l l.
Proof. intros H. induction l; constructor; auto. Qed.
Lemma Forall2_trans' {A B C} (R : A -> B -> Prop) (S : B -> C -> Prop) (T : A -> C -> Prop) l m n :
  (forall a b c, R a b -> S b c -> T a c) -> Forall2 R l m -> Forall2 S m n -> Forall2 T l n.
Proof.
  intros H H1. revert n. induction H1; intros n' H2; inversion H2; subst; constructor; eauto.
Qed.
Lemma Forall2_nth_l {A B} (R : A -> B -> Prop) l m i a : Forall2 R l m -> nth_error l i = Some a -> exists b, nth_error m i = Some b /\ R a b.
Proof. intros H. revert i. induction H; intros [|i] E; simpl in *; try discriminate; eauto. injection E as <-. eauto. Qed.
Lemma Forall2_nth_r {A B} (R : A -> B -> Prop) l m i b : Forall2 R l m -> nth_error m i = Some b -> exists a, nth_error l i = Some a /\ R a b.
Proof. intros H. revert i. induction H; intros [|i] E; simpl in *; try discriminate; eauto. injection E as <-. eauto. Qed.
Lemma Forall2_In_l {A B} (R : A -> B -> Prop) l m a : Forall2 R l m -> In a l -> exists b, In b m /\ R a b.
Proof.
  intros H Ha. apply In_nth_error in Ha. destruct Ha as [i Hi]. destruct (Forall2_nth_l _ _ _ _ _ H Hi) as (b & Hb & HR).
  exists b. split; auto. eapply nth_error_In; eauto.
Qed.
Lemma Forall2_In_r {A B} (R : A -> B -> Prop) l m b : Forall2 R l m -> In b m -> exists a, In a l /\ R a b.
Proof.
  intros H Ha. apply In_nth_error in Ha. destruct Ha as [i Hi]. destruct (Forall2_nth_r _ _ _ _ _ H Hi) as (a & Hb & HR).
  exists a. split; auto. eapply nth_error_In; eauto.
Qed.

Lemma seq_nth_inv n i j : nth_error (seq 0 n) i = Some j -> j = i.
Proof.
  intros H. assert (i < n) by (rewrite <- (seq_length n 0); apply nth_error_Some; congruence).
  rewrite seq_nth_error in H by auto. injection H as <-. auto.
Qed.

Lemma same_core_left splits splits' x k : Forall2 same_core splits splits' -> goes_left splits x k = goes_left splits' x k.
Proof.
  intros H. unfold goes_left. destruct (nth_error splits k) as [s|] eqn:E.
  - destruct (Forall2_nth_l _ _ _ _ _ H E) as (t & -> & (_ & H1 & H2 & _)). unfold sample_left. rewrite H1, H2. reflexivity.
  - destruct (nth_error splits' k) as [t|] eqn:E'; auto.
    destruct (Forall2_nth_r _ _ _ _ _ H E') as (s & H1 & _). congruence.
Qed.

Section Inv.
Variables (d : nat) (X : list sample) (nodes0 : list node) (splits0 : list split).
Hypothesis wf : wf_tree d X nodes0 splits0.
Let leaves := complete_leaves d.
Let cov := covb X leaves splits0.

Lemma cov_id : forall c p i, cov c (with_id p i) = cov c p.
Proof. intros [l|r|z|l n k] p i; reflexivity. Qed.

Lemma cov_row r x p : nth_error X r = Some x -> p_leaf p < 2 ^ d ->
  cov (KRow r) p = followsb (create_leaf (p_leaf p) d) (goes_left splits0 x) p.
Proof.
  intros Hx Hl. unfold cov, covb. rewrite Hx. unfold leaves. rewrite complete_leaves_length. apply Nat.ltb_lt in Hl as Hl'. rewrite Hl'.
  rewrite leaf_of_complete by auto. reflexivity.
Qed.
Lemma cov_cut z p : p_leaf p < 2 ^ d -> cov (KCut z) p = followsb (create_leaf (p_leaf p) d) (fun k => nth k z false) p.
Proof.
  intros Hl. unfold cov, covb, leaves. rewrite complete_leaves_length. apply Nat.ltb_lt in Hl as Hl'. rewrite Hl'.
  rewrite leaf_of_complete by auto. reflexivity.
Qed.

Definition rows_ok (paths : list path) (rows : list row) : Prop :=
  length rows = length X /\
  forall r dr, nth_error rows r = Some dr -> NoDup (r_paths dr) /\
    forall v, In v (r_paths dr) <-> exists p, In p paths /\ p_id p = v /\ cov (KRow r) p = true.

Record tinv (kinds : list ckind) (zs : list (list bool)) (s : tmaster) : Prop := {
  ti_gen : tm_generated s = true;
  ti_X : tm_X s = X;
  ti_leaves : tm_leaves s = leaves;
  ti_nodes : Forall2 same_node (tm_nodes s) nodes0;
  ti_splits : Forall2 same_core (tm_splits s) splits0;
  ti_sides : forall k sp, nth_error (tm_splits s) k = Some sp ->
    (forall c, In c (s_lcuts sp) <-> exists z, nth_error zs c = Some z /\ nth k z false = true) /\
    (forall c, In c (s_rcuts sp) <-> exists z, nth_error zs c = Some z /\ nth k z false = false) /\
    NoDup (s_lcuts sp) /\ NoDup (s_rcuts sp);
  ti_zs : Forall (fun z => length z = length splits0) zs;
  ti_lp : lp_ok cov (tm_paths s) (tm_ns_vars s) kinds (tm_lp s);
  ti_max : lp_max (tm_lp s) = true;
  ti_plain : Forall (plain_path d splits0) (tm_paths s);
  ti_pvars : tm_path_vars s = map p_id (tm_paths s);
  ti_rows : exists rows, tm_rows s = Some rows /\ rows_ok (tm_paths s) rows /\
    (forall r, In (KRow r) kinds -> exists dr, nth_error rows r = Some dr /\ r_gone dr = false);
  ti_leaf_len : length (tm_leaf_cons s) = 2 ^ d;
  ti_leaf : links KLeaf (tm_leaf_cons s) kinds;
  ti_leaf_in : forall l, In (KLeaf l) kinds <-> l < 2 ^ d;
  ti_row_len : length (tm_row_cons s) = length X;
  ti_row : links KRow (tm_row_cons s) kinds;
  ti_added_len : length X <= length (tm_added s);
  ti_added : forall r, r < length X -> (nth_error (tm_added s) r = Some true <-> In (KRow r) kinds);
  ti_ns : klinks (tm_ns_cons s) kinds;
  ti_ns_in : forall l n k, In (KChoice l n k) kinds <-> In (l, n, k) (ns_triples leaves nodes0);
  ti_ns_vars : forall n k, In (n, k) (map fst (tm_ns_vars s)) <-> exists l, In (KChoice l n k) kinds;
  ti_cut_len : length (tm_cut_cons s) = length zs;
  ti_cut : forall i c, nth_error (tm_cut_cons s) i = Some c -> exists z, nth_error zs i = Some z /\ nth_error kinds c = Some (KCut z);
  ti_cut_in : forall c z, nth_error kinds c = Some (KCut z) -> exists i, nth_error (tm_cut_cons s) i = Some c;
  ti_cut_once : NoDup (tm_cut_cons s);
  ti_cm_splits : cm_splits (tm_cutmodel s) = length splits0;
  ti_cm_paths : cm_paths (tm_cutmodel s) = map (fun p => lits (create_leaf (p_leaf p) d) p) (tm_paths s);
  ti_cm_imps : forall i j, In (i, j) (cm_imps (tm_cutmodel s)) <->
    exists s t, nth_error splits0 i = Some s /\ nth_error splits0 j = Some t /\ s_feature s = s_feature t /\ (s_threshold s < s_threshold t)%Q
}.

(** * Rows *)

Lemma plain_lengths p : plain_path d splits0 p -> length (p_nodes p) = length (p_splits p).
Proof. intros (_ & H1 & H2 & _). congruence. Qed.
Lemma plain_id p i : plain_path d splits0 p -> plain_path d splits0 (with_id p i).
Proof. intros H. exact H. Qed.

Lemma row_follows x p : fits splits0 x -> plain_path d splits0 p ->
  (let* lf := getitem leaves (p_leaf p) in row_satisfies_path x lf splits0 p) =
  Ok (followsb (create_leaf (p_leaf p) d) (goes_left splits0 x) p).
Proof.
  intros Hf Hp. assert (Hl : p_leaf p < 2 ^ d) by apply Hp. unfold leaves.
  rewrite (getitem_nth _ _ _ (complete_leaves_nth d (p_leaf p) Hl)). cbn [bind].
  apply row_satisfies_path_ok; auto using plain_lengths. apply Hp.
Qed.
Lemma row_follows_leaf x p : plain_path d splits0 p -> fits splits0 x -> exists lf, getitem leaves (p_leaf p) = Ok lf /\
  row_satisfies_path x lf splits0 p = Ok (followsb (create_leaf (p_leaf p) d) (goes_left splits0 x) p).
Proof.
  intros Hp Hf. exists (create_leaf (p_leaf p) d). assert (Hl : p_leaf p < 2 ^ d) by apply Hp. split.
  - apply getitem_nth, complete_leaves_nth. auto.
  - apply row_satisfies_path_ok; auto using plain_lengths. apply Hp.
Qed.

Lemma satisfied_paths_ok x paths : fits splits0 x -> Forall (plain_path d splits0) paths -> forall ids,
  exists ids', satisfied_paths x leaves splits0 paths ids = Ok ids' /\ (NoDup ids -> NoDup ids') /\
    forall v, In v ids' <-> In v ids \/ exists p, In p paths /\ p_id p = v /\
                                            followsb (create_leaf (p_leaf p) d) (goes_left splits0 x) p = true.
Proof.
  intros Hf Hp ids. unfold satisfied_paths.
  destruct (for_each_steps paths
    (fun p ids => let* lf := getitem leaves (p_leaf p) in let* b := row_satisfies_path x lf splits0 p in
                  Ok (if (b : bool) then set_add (p_id p) ids else ids))
    (fun u ids' => (NoDup ids -> NoDup ids') /\
                   forall v, In v ids' <-> In v ids \/ exists p, In p u /\ p_id p = v /\
                                            followsb (create_leaf (p_leaf p) d) (goes_left splits0 x) p = true) ids)
    as (ids' & E & H).
  - split; [auto|]. intros v. split; [auto|]. intros [?|(p & [] & _)]; auto.
  - intros u p w acc Eu [Hnd Hacc]. rewrite Forall_forall in Hp.
    assert (Hpp : plain_path d splits0 p) by (apply Hp; rewrite Eu; apply in_app_iff; simpl; auto).
    destruct (row_follows_leaf x p Hpp Hf) as (lf & E1 & E2). rewrite E1. cbn [bind]. rewrite E2. cbn [bind].
    eexists. split; [reflexivity|]. split; [intros H; destruct (followsb _ _ p); auto using set_add_NoDup|]. intros v.
    destruct (followsb _ _ p) eqn:Ef.
    + rewrite set_add_In, Hacc. split.
      * intros [->|[?|(q & H1 & H2)]]; auto; right; [exists p|exists q]; rewrite in_app_iff; simpl; auto.
      * intros [?|(q & H1 & H2 & H3)]; auto. apply in_app_iff in H1. destruct H1 as [H1|[<-|[]]]; auto. right. right. eauto.
    + rewrite Hacc. split.
      * intros [?|(q & H1 & H2)]; auto; right; exists q; rewrite in_app_iff; simpl; auto.
      * intros [?|(q & H1 & H2 & H3)]; auto. apply in_app_iff in H1. destruct H1 as [H1|[<-|[]]]; [|congruence]. right. eauto.
  - eauto.
Qed.

Lemma row_splits_ok x : fits splits0 x -> exists ls rs, row_splits x splits0 = Ok (ls, rs) /\
  (forall k, In k ls <-> exists s, In s splits0 /\ s_id s = k /\ sample_left x s = true) /\
  (forall k, In k rs <-> exists s, In s splits0 /\ s_id s = k /\ sample_left x s = false).
Proof.
  intros Hf. unfold row_splits.
  destruct (for_each_steps splits0
    (fun s lr => let* v := getitem x (s_feature s) in
       Ok (if Qle_bool v (s_threshold s) then (set_add (s_id s) (fst lr), snd lr) else (fst lr, set_add (s_id s) (snd lr))))
    (fun u lr => (forall k, In k (fst lr) <-> exists s, In s u /\ s_id s = k /\ sample_left x s = true) /\
                 (forall k, In k (snd lr) <-> exists s, In s u /\ s_id s = k /\ sample_left x s = false)) ([], [])) as ([ls rs] & E & H).
  - simpl. split; intros k; (split; [tauto|]); intros (s & [] & _).
  - intros u s v [ls rs] Eu [H1 H2]. cbn [fst snd] in *.
    assert (Hs : In s splits0) by (rewrite Eu; apply in_app_iff; simpl; auto).
    rewrite (fits_getitem _ _ _ Hf Hs). cbn [bind]. fold (sample_left x s).
    destruct (sample_left x s) eqn:Es; eexists; (split; [reflexivity|]); cbn [fst snd]; split; intros k.
    + rewrite set_add_In, H1. split.
      * intros [->|(t & H3 & H4)]; [exists s|exists t]; rewrite in_app_iff; simpl; auto.
      * intros (t & H3 & <- & H5). apply in_app_iff in H3. destruct H3 as [H3|[<-|[]]]; auto. right. eauto.
    + rewrite H2. split.
      * intros (t & H3 & H4); exists t; rewrite in_app_iff; simpl; auto.
      * intros (t & H3 & <- & H5). apply in_app_iff in H3. destruct H3 as [H3|[<-|[]]]; [eauto|congruence].
    + rewrite H1. split.
      * intros (t & H3 & H4); exists t; rewrite in_app_iff; simpl; auto.
      * intros (t & H3 & <- & H5). apply in_app_iff in H3. destruct H3 as [H3|[<-|[]]]; [eauto|congruence].
    + rewrite set_add_In, H2. split.
      * intros [->|(t & H3 & H4)]; [exists s|exists t]; rewrite in_app_iff; simpl; auto.
      * intros (t & H3 & <- & H5). apply in_app_iff in H3. destruct H3 as [H3|[<-|[]]]; auto. right. eauto.
  - exists ls, rs. auto.
Qed.

Definition paths_of_row (paths : list path) (x : sample) (dr : row) : Prop :=
  NoDup (r_paths dr) /\ forall v, In v (r_paths dr) <-> exists p, In p paths /\ p_id p = v /\
                                   followsb (create_leaf (p_leaf p) d) (goes_left splits0 x) p = true.

Lemma rows_ok_intro paths rows : Forall (plain_path d splits0) paths -> Forall2 (paths_of_row paths) X rows -> rows_ok paths rows.
Proof.
  intros Hp H. split; [symmetry; apply (Forall2_length' _ _ _ H)|]. intros r dr Hr.
  destruct (Forall2_nth_r _ _ _ _ _ H Hr) as (x & Hx & HN & HR). split; auto. intros v. rewrite (HR v).
  rewrite Forall_forall in Hp.
  split; intros (p & H1 & H2 & H3); exists p; split; auto; split; auto;
    [rewrite (cov_row r x)|rewrite (cov_row r x) in H3]; auto; apply (Hp p H1).
Qed.

(** What preprocess_rows records about one sample. *)
Definition row_recorded (paths : list path) (nodes : list node) (x : sample) (dr : row) : Prop :=
  paths_of_row paths x dr /\
  (forall k, In k (r_left dr) <-> exists s, In s splits0 /\ s_id s = k /\ sample_left x s = true) /\
  (forall k, In k (r_right dr) <-> exists s, In s splits0 /\ s_id s = k /\ sample_left x s = false) /\
  (r_nodes dr, r_leaves dr) = reach (r_left dr) nodes /\
  r_gone dr = (length (r_leaves dr) <=? 2) /\ r_gone_sp dr = false /\ r_weight dr = 1.

Lemma preprocess_row_ok paths nodes x : fits splits0 x -> Forall (plain_path d splits0) paths ->
  exists dr, preprocess_row leaves nodes splits0 paths x = Ok dr /\ row_recorded paths nodes x dr.
Proof.
  intros Hf Hp. unfold preprocess_row.
  destruct (row_splits_ok x Hf) as (ls & rs & E & H1 & H2). rewrite E. cbn [bind].
  destruct (reach ls nodes) as [rn rl] eqn:Er.
  destruct (satisfied_paths_ok x paths Hf Hp []) as (ids & E2 & H3n & H3). rewrite E2. cbn [bind].
  eexists. split; [reflexivity|]. unfold row_recorded. cbn.
  split; [split; [apply H3n; constructor|intros v; rewrite H3; simpl; tauto]|]. auto 10.
Qed.

Lemma log2_leaves : Nat.log2 (length leaves) = d.
Proof. unfold leaves. rewrite complete_leaves_length. apply Nat.log2_pow2. lia. Qed.

Lemma preprocess_rows_ok paths : Forall (plain_path d splits0) paths ->
  exists rows, preprocess_rows false X leaves nodes0 splits0 paths = Ok (map (preprocess_node d) nodes0, rows) /\
    Forall2 (row_recorded paths (map (preprocess_node d) nodes0)) X rows.
Proof.
  intros Hp. unfold preprocess_rows. rewrite log2_leaves. unfold leaves. rewrite complete_leaves_length.
  pose proof (pow2_pos d). destruct (Nat.eqb_spec (2 ^ d) 0); [lia|].
  destruct (map_res_Forall2 (preprocess_row (complete_leaves d) (map (preprocess_node d) nodes0) splits0 paths)
    (row_recorded paths (map (preprocess_node d) nodes0)) X) as (rows & E & HF).
  - intros x Hx. apply preprocess_row_ok; auto. pose proof (wt_fits _ _ _ _ wf) as Hf. rewrite Forall_forall in Hf. auto.
  - rewrite E. cbn [bind]. pose proof (wt_rows _ _ _ _ wf). destruct (Nat.eqb_spec (length X) 0); [lia|]. eauto.
Qed.

Lemma preprocess_node_same n : same_node (preprocess_node d n) n.
Proof. unfold preprocess_node. destruct (2 ^ d - 1 <=? 2 * n_id n + 1); split; reflexivity. Qed.

(** Rows given by the caller: as many as samples, no paths recorded yet. *)
Definition fresh_rows (rows : list row) : Prop := length rows = length X /\ Forall (fun r => r_paths r = []) rows.

Definition same_row (a b : row) : Prop :=
  r_nodes a = r_nodes b /\ r_leaves a = r_leaves b /\ r_left a = r_left b /\ r_right a = r_right b /\
  r_gone a = r_gone b /\ r_gone_sp a = r_gone_sp b /\ r_weight a = r_weight b.

Lemma compute_satisfied_paths_ok paths rows : fresh_rows rows -> Forall (plain_path d splits0) paths ->
  exists rows', compute_satisfied_paths X leaves splits0 paths rows = Ok rows' /\ Forall2 (paths_of_row paths) X rows' /\
    Forall2 same_row rows' rows.
Proof.
  intros [Hl Hr] Hp. unfold compute_satisfied_paths.
  destruct (map_res_Forall2 (fun i => let* r := getitem rows i in
                    let* x := (if length paths =? 0 then Ok [] else getitem X i) in
                    let* ids := satisfied_paths x leaves splits0 paths (r_paths r) in
                    Ok (with_paths r ids))
    (fun i dr => exists x dr0, nth_error X i = Some x /\ nth_error rows i = Some dr0 /\ paths_of_row paths x dr /\ same_row dr dr0)
    (seq 0 (length rows))) as (rows' & E & HF).
  - intros i Hi. apply in_seq in Hi. destruct (getitem_lt rows i) as [r Er]; [lia|]. rewrite Er. cbn [bind].
    destruct (getitem_lt X i) as [x Ex]; [lia|]. apply getitem_ok in Er, Ex.
    assert (Hrp : r_paths r = []) by (rewrite Forall_forall in Hr; apply Hr; eapply nth_error_In; eauto).
    rewrite Hrp.
    assert (Hfx : fits splits0 x).
    { pose proof (wt_fits _ _ _ _ wf) as Hf. rewrite Forall_forall in Hf. apply Hf. eapply nth_error_In; eauto. }
    destruct (Nat.eqb_spec (length paths) 0) as [H0|H0].
    + cbn [bind]. destruct paths; [|discriminate]. simpl. eexists. split; [reflexivity|]. exists x, r.
      split; auto. split; auto. split; [|repeat split; auto]. split; [constructor|]. intros v. simpl. split; [tauto|intros (p & [] & _)].
    + rewrite (getitem_nth _ _ _ Ex). cbn [bind].
      destruct (satisfied_paths_ok x paths Hfx Hp []) as (ids & E2 & H3n & H3). rewrite E2. cbn [bind].
      eexists. split; [reflexivity|]. exists x, r. split; auto. split; auto. split; [|repeat split; auto].
      split; [apply H3n; constructor|]. intros v. simpl. rewrite H3. simpl. tauto.
  - exists rows'. split; auto. pose proof (Forall2_length' _ _ _ HF) as Hlen. rewrite seq_length in Hlen.
    split; apply Forall2_intro_nth; try lia.
    + intros i x dr Hx Hdr. destruct (Forall2_nth_r _ _ _ _ _ HF Hdr) as (j & Hj & x' & dr0 & H1 & H2 & H3 & H4).
      apply seq_nth_inv in Hj. subst j. assert (x' = x) by congruence. subst x'. exact H3.
    + intros i dr dr0 Hdr Hx. destruct (Forall2_nth_r _ _ _ _ _ HF Hdr) as (j & Hj & x' & dr1 & H1 & H2 & H3 & H4).
      apply seq_nth_inv in Hj. subst j. assert (dr1 = dr0) by congruence. subst dr1. exact H4.
Qed.

(** * Row constraints *)

Lemma followed_ok x paths : fits splits0 x -> Forall (plain_path d splits0) paths ->
  followed x leaves splits0 paths = Ok (filter (fun p => followsb (create_leaf (p_leaf p) d) (goes_left splits0 x) p) paths).
Proof.
  intros Hf Hp. induction Hp as [|p ps Hp Hps IH]; simpl; auto.
  destruct (row_follows_leaf x p Hp Hf) as (lf & E1 & E2). rewrite E1. cbn [bind]. rewrite E2. cbn [bind]. rewrite IH. cbn [bind].
  reflexivity.
Qed.

Lemma repeat_nth {A} (a : A) n i b : nth_error (repeat a n) i = Some b <-> i < n /\ b = a.
Proof.
  split.
  - intros H. split; [|eapply repeat_spec, nth_error_In; eauto]. rewrite <- (repeat_length a n). apply nth_error_Some. congruence.
  - intros [H ->]. rewrite nth_error_nth' with (d := a) by (rewrite repeat_length; auto). f_equal. apply nth_repeat.
Qed.

(** What the row constraints have to satisfy. *)
Definition row_cons_ok (kinds : list ckind) (cs : list (option nat)) (added : list bool) : Prop :=
  length cs = length X /\ links KRow cs kinds /\ length added = length X /\
  (forall r, nth_error added r = Some true <-> In (KRow r) kinds).

Lemma make_row_cons_ok beta paths rows m kinds leaf_cons :
  lp_ok cov paths [] kinds m -> Forall (plain_path d splits0) paths -> length rows = length X ->
  links KLeaf leaf_cons kinds -> (forall c, In c kinds <-> exists l, l < 2 ^ d /\ c = KLeaf l) ->
  exists m' cs added kinds', make_row_cons beta X leaves splits0 paths rows m = Ok (m', cs, added) /\
    lp_ok cov paths [] kinds' m' /\ lp_max m' = lp_max m /\ links KLeaf leaf_cons kinds' /\ row_cons_ok kinds' cs added /\
    (forall c, In c kinds' <-> (exists l, l < 2 ^ d /\ c = KLeaf l) \/ 
      (exists r dr, c = KRow r /\ beta = false /\ nth_error rows r = Some dr /\ r_gone dr = false)).
Proof.
  intros H0 Hp Hlen Hlk Hin. unfold make_row_cons.
  assert (Hrow : links KRow (repeat None (length X)) kinds).
  { intros i c. rewrite repeat_nth. split; [intros [_ E]; discriminate|]. intros E. apply nth_error_In in E.
    apply Hin in E. destruct E as (l & _ & E). discriminate. }
  assert (Hnr : forall r, ~ In (KRow r) kinds) by (intros r E; apply Hin in E; destruct E as (l & _ & E); discriminate).
  destruct beta.
  - exists m, (repeat None (length X)), (repeat false (length X)), kinds. split; auto. split; auto. split; auto. split; auto. split.
    + unfold row_cons_ok. rewrite !repeat_length. split; auto. split; auto. split; auto. intros r. rewrite repeat_nth.
      split; [intros [_ E]; discriminate|intros E; exfalso; eapply Hnr; eauto].
    + intros c. rewrite Hin. split; [auto|]. intros [?|(r & dr & _ & E & _)]; auto. discriminate.
  - destruct (for_each_steps (seq 0 (length X))
      (fun r st =>
         let '(m, cs, added) := st in
         let* dr := getitem rows r in
         if r_gone dr then Ok st
         else
           let* added1 := setitem added r true in
           let '(c, m1) := new_con None (Some 1%Q) m in
           let* cs1 := setitem cs r (Some c) in
           let* x := getitem X r in
           let* ps := followed x leaves splits0 paths in
           Ok (set_ones c ps m1, cs1, added1))
      (fun u st => exists kinds', let '(m', cs, added) := st in
         lp_ok cov paths [] kinds' m' /\ lp_max m' = lp_max m /\ links KLeaf leaf_cons kinds' /\ row_cons_ok kinds' cs added /\
         (forall c, In c kinds' <-> (exists l, l < 2 ^ d /\ c = KLeaf l) \/ 
           (exists r dr, c = KRow r /\ In r u /\ nth_error rows r = Some dr /\ r_gone dr = false)) /\
         (forall r, r < length X -> ~ In (KRow r) kinds' -> nth_error cs r = Some None))
      (m, repeat None (length X), repeat false (length X))) as ([[m' cs] added] & E & kinds' & H1 & H2 & H3 & H4 & H5 & H6).
    + exists kinds. split; auto. split; auto. split; auto. split; [|split].
      * unfold row_cons_ok. rewrite !repeat_length. split; auto. split; auto. split; auto. intros r. rewrite repeat_nth.
        split; [intros [_ E]; discriminate|intros E; exfalso; eapply Hnr; eauto].
      * intros c. rewrite Hin. split; [auto|]. intros [?|(r & dr & _ & [] & _)]; auto.
      * intros r Hr _. apply repeat_nth. auto.
    + intros u r v [[m1 cs] added] Eu (kinds' & H1 & H2 & H3 & (H4a & H4b & H4c & H4d) & H5 & H6).
      assert (Hr : r < length X) by (assert (In r (seq 0 (length X))) by (rewrite Eu; apply in_app_iff; simpl; auto); apply in_seq in H; lia).
      assert (Hru : ~ In r u).
      { assert (Hnd : NoDup (u ++ r :: v)) by (rewrite <- Eu; apply seq_NoDup). intros Hin'. apply (NoDup_app_disj _ _ _ Hnd Hin'). simpl; auto. }
      destruct (getitem_lt rows r) as [dr Edr]; [lia|]. rewrite Edr. cbn [bind]. apply getitem_ok in Edr.
      destruct (r_gone dr) eqn:Eg.
      * eexists. split; [reflexivity|]. exists kinds'. split; auto. split; auto. split; auto. split; [split; [|split; [|split]]; auto|]. split; auto.
        intros c. rewrite H5. split.
        -- intros [?|(r' & dr' & E1 & E2 & E3)]; auto. right. exists r', dr'. rewrite in_app_iff. auto.
        -- intros [?|(r' & dr' & E1 & E2 & E3 & E4)]; auto. right. exists r', dr'. apply in_app_iff in E2.
           destruct E2 as [E2|[<-|[]]]; auto. congruence.
      * assert (Hnk : ~ In (KRow r) kinds').
        { intros E. apply H5 in E. destruct E as [(l & _ & E)|(r' & dr' & E1 & E2 & _)]; [discriminate|]. injection E1 as <-. auto. }
        unfold setitem. rewrite H4c, H4a. apply Nat.ltb_lt in Hr as Hr'. rewrite Hr'. cbn [bind]. unfold new_con. cbn iota beta zeta. cbn [bind].
        destruct (getitem_lt X r Hr) as [x Ex]. rewrite Ex. cbn [bind]. apply getitem_ok in Ex.
        assert (Hfx : fits splits0 x).
        { pose proof (wt_fits _ _ _ _ wf) as Hf. rewrite Forall_forall in Hf. apply Hf. eapply nth_error_In; eauto. }
        rewrite followed_ok by auto. cbn [bind]. eexists. split; [reflexivity|]. exists (kinds' ++ [KRow r]).
        pose proof (lp_ok_kinds _ _ _ _ _ H1) as Hk. change (length (lp_cons m1)) with (num_cons m1).
        rewrite set_ones_ones.
        match goal with |- context [ones ?l ?m0] => pose proof (ones_rel_ones l m0) as Hones end.
        split; [|split; [|split; [|split; [|split]]]].
        -- apply (lp_ok_con cov paths [] kinds' m1 _ (KRow r) _ H1 ltac:(intros; reflexivity) Hones).
           rewrite Forall_forall in Hp. intros i j. rewrite in_map_iff. split.
           ++ intros (p & Ep & Hpf). injection Ep as <- <-. apply filter_In in Hpf. destruct Hpf as [Hpi Hq]. split; auto.
              exists p. rewrite (cov_row r x) by (auto; apply (Hp p Hpi)). auto.
           ++ intros (-> & p & Hpi & <- & Hc). exists p. split; auto. apply filter_In.
              rewrite (cov_row r x) in Hc by (auto; apply (Hp p Hpi)). auto.
        -- etransitivity; [exact (or_max _ _ _ Hones)|exact H2].
        -- apply links_other; auto. discriminate.
        -- split; [rewrite length_set_nth; auto|]. split; [|split].
           ++ rewrite <- Hk. apply links_add; auto. intros a b E. injection E as ->. auto.
           ++ rewrite length_set_nth; auto.
           ++ intros r'. rewrite in_app_iff. simpl. destruct (Nat.eq_dec r' r) as [->|Hne].
              ** rewrite nth_error_set_nth_same by lia. tauto.
              ** rewrite nth_error_set_nth_other by auto. rewrite H4d. split; [auto|]. intros [?|[E|[]]]; auto. congruence.
        -- intros c. rewrite in_app_iff, H5. simpl. split.
           ++ intros [[?|(r' & dr' & E1 & E2 & E3)]|[<-|[]]]; auto; right; [exists r', dr'|exists r, dr]; rewrite in_app_iff; simpl; auto.
           ++ intros [?|(r' & dr' & E1 & E2 & E3)]; auto. apply in_app_iff in E2. destruct E2 as [E2|[<-|[]]]; auto.
              left. right. exists r', dr'. auto.
        -- intros r' Hr1 Hn. rewrite in_app_iff in Hn. simpl in Hn. assert (r' <> r) by (intros ->; tauto).
           rewrite nth_error_set_nth_other by auto. apply H6; auto.
    + exists m', cs, added, kinds'. split; auto. split; auto. split; auto. split; auto. split; auto.
      intros c. rewrite H5. split; (intros [?|(r & dr & E1 & E2 & E3 & E4)]; [auto|right; exists r, dr]).
      * auto.
      * split; auto. split; auto. apply in_seq. assert (r < length rows) by (apply nth_error_Some; congruence). lia.
Qed.

(** * Consistency constraints *)

Lemma uses_loop_ok p n s : length (p_nodes p) = length (p_splits p) ->
  forall ns ks un uk, p_nodes p = un ++ ns -> p_splits p = uk ++ ks -> length un = length uk -> length ns = length ks ->
  uses_loop p n s (seq (length un) (length ns)) = Ok (mem2 n s (combine ns ks)).
Proof.
  intros Hpl. induction ns as [|n' ns IH]; intros [|k ks] un uk E1 E2 Hu Hl; simpl in Hl; try discriminate; cbn [length seq uses_loop]; auto.
  assert (G1 : getitem (p_splits p) (length un) = Ok k) by (rewrite E2, Hu; apply getitem_mid).
  assert (G2 : getitem (p_nodes p) (length un) = Ok n') by (rewrite E1; apply getitem_mid).
  rewrite G1, G2. cbn [bind].
  assert (IH' : uses_loop p n s (seq (S (length un)) (length ns)) = Ok (mem2 n s (combine ns ks))).
  { specialize (IH ks (un ++ [n']) (uk ++ [k])). rewrite !app_length in IH. simpl in IH. rewrite !Nat.add_1_r in IH.
    apply IH; auto; rewrite <- app_assoc; auto. }
  unfold mem2. cbn [combine existsb fst snd]. fold (mem2 n s (combine ns ks)).
  destruct (Nat.eqb_spec n' n) as [->|Hn]; cbn [andb orb].
  - destruct (Nat.eqb_spec k s) as [->|Hk]; cbn [orb]; rewrite IH'; reflexivity.
  - exact IH'.
Qed.

Lemma uses_ok p l n s : length (p_nodes p) = length (p_splits p) -> uses p l n s = Ok (cov (KChoice l n s) p).
Proof.
  intros H. unfold uses, cov, covb, choices. destruct (p_leaf p =? l); auto. cbn [andb].
  apply (uses_loop_ok p n s H _ _ [] []); auto.
Qed.

Definition ns_ok (paths : list path) (leaf_cons row_cons : list (option nat)) (added : list bool) (base : list ckind)
    (u : list key3) (st : ns_state) (m0 : lp) (kinds : list ckind) : Prop :=
  let '(m, vars, cs) := st in
  lp_ok cov paths vars kinds m /\ lp_max m = lp_max m0 /\ links KLeaf leaf_cons kinds /\ row_cons_ok kinds row_cons added /\
  klinks cs kinds /\ (forall c, In c kinds <-> In c base \/ exists l n k, In (l, n, k) u /\ c = KChoice l n k) /\
  (forall n k, In (n, k) (map fst vars) <-> exists l, In (l, n, k) u).

Lemma make_ns_ok paths leaf_cons row_cons added m0 base u v l n k st kinds :
  NoDup (u ++ (l, n, k) :: v) -> Forall (plain_path d splits0) paths -> (forall l n k, ~ In (KChoice l n k) base) ->
  ns_ok paths leaf_cons row_cons added base u st m0 kinds ->
  exists st' kinds', make_ns paths l n k st = Ok st' /\ ns_ok paths leaf_cons row_cons added base (u ++ [(l, n, k)]) st' m0 kinds'.
Proof.
  destruct st as [[m vars] cs]. intros Hnd Hp Hbase (H1 & H2 & H3 & H4 & H5 & H6 & H7). unfold make_ns.
  assert (Hfresh : ~ In (l, n, k) u) by (intros Hi; apply (NoDup_app_disj _ _ _ Hnd Hi); simpl; auto).
  assert (HnoK : ~ In (KChoice l n k) kinds).
  { intros Hi. apply H6 in Hi. destruct Hi as [Hi|(l' & n' & k' & Hi & E)]; [eapply Hbase; eauto|]. injection E as <- <- <-. auto. }
  (* the choice variable *)
  assert (Hvar : exists v0 m1 vars1,
    match assoc key2_eqb vars (n, k) with Some v => (v, m) | None => new_var (Some 0%Q) None true m end = (v0, m1) /\
    assoc_set key2_eqb vars (n, k) v0 = vars1 /\ lp_ok cov paths vars1 kinds m1 /\ lp_max m1 = lp_max m0 /\ In ((n, k), v0) vars1 /\
    (forall n' k', In (n', k') (map fst vars1) <-> In (n', k') (map fst vars) \/ (n', k') = (n, k))).
  { destruct (assoc key2_eqb vars (n, k)) as [v0|] eqn:Ea.
    - exists v0, m, vars. split; auto. split; [apply assoc_set_same; auto using key2_iff|]. split; auto. split; auto.
      apply (assoc_In _ key2_iff) in Ea. split; auto. intros n' k'. split; auto. intros [?|E]; auto.
      rewrite E. change (n, k) with (fst ((n, k), v0)). apply in_map. auto.
    - pose proof Ea as Ea'. apply (assoc_None _ key2_iff) in Ea'.
      exists (num_vars m), (snd (new_var (Some 0%Q) None true m)), (vars ++ [((n, k), num_vars m)]).
      split; [reflexivity|]. split; [apply (assoc_set_new _ key2_iff); auto|]. split; [|split; [exact H2|split]].
      + refine (lp_ok_choice_var cov paths vars kinds m n k H1 Ea' _).
        intros l' Hi. apply Ea'. apply H7. apply H6 in Hi. destruct Hi as [Hi|(l1 & n1 & k1 & Hi & E)]; [exfalso; eapply Hbase; eauto|].
        injection E as <- <- <-. eauto.
      + apply in_app_iff. simpl. auto.
      + intros n' k'. rewrite map_app, in_app_iff. simpl. intuition congruence. }
  destruct Hvar as (v0 & m1 & vars1 & E1 & E2 & L1 & M1 & V1 & V2). rewrite E1, E2. cbn iota beta. unfold new_con. cbn iota beta zeta.
  set (c := length (lp_cons m1)).
  assert (Hfor : forall m3, for_each paths (fun p m => let* b := uses p l n k in Ok (if (b : bool) then set_coef c (p_id p) 1%Q m else m)) m3 =
    Ok (ones (flat_map (fun p => if cov (KChoice l n k) p then [(c, p_id p)] else []) paths) m3)).
  { apply for_each_ones. rewrite Forall_forall in Hp. intros p m3 Hpi. rewrite uses_ok by (apply plain_lengths; auto). cbn [bind].
    destruct (cov (KChoice l n k) p); reflexivity. }
  rewrite Hfor. cbn [bind].
  set (ls := flat_map (fun p => if cov (KChoice l n k) p then [(c, p_id p)] else []) paths).
  exists (ones ls (set_coef c v0 (-1)%Q (snd (new_con (Some 0%Q) (Some 0%Q) m1))), vars1, assoc_set key3_eqb cs (l, n, k) c).
  exists (kinds ++ [KChoice l n k]). split; [reflexivity|].
  pose proof (ones_rel_ones ls (set_coef c v0 (-1)%Q (snd (new_con (Some 0%Q) (Some 0%Q) m1)))) as Hones.
  pose proof (lp_ok_kinds _ _ _ _ _ L1) as Hk.
  assert (Hac : assoc key3_eqb cs (l, n, k) = None).
  { destruct (assoc key3_eqb cs (l, n, k)) as [c'|] eqn:Ea; auto. apply H5 in Ea. exfalso. apply HnoK. eapply nth_error_In; eauto. }
  split; [|split; [|split; [|split; [|split; [|split]]]]].
  - refine (lp_ok_choice_con cov paths vars1 kinds m1 _ l n k v0 ls L1 V1 Hones _).
    intros i j. unfold ls. rewrite in_flat_map. split.
    + intros (p & Hpi & Hij). destruct (cov (KChoice l n k) p) eqn:Ec; [|contradiction]. destruct Hij as [E|[]]. injection E as <- <-. eauto.
    + intros (-> & p & Hpi & <- & Hc). exists p. rewrite Hc. split; auto. simpl. auto.
  - etransitivity; [exact (or_max _ _ _ Hones)|exact M1].
  - apply links_other; auto. discriminate.
  - destruct H4 as (A1 & A2 & A3 & A4). split; auto. split; [apply links_other; auto; discriminate|]. split; auto.
    intros r. rewrite A4, in_app_iff. simpl. split; [auto|]. intros [?|[E|[]]]; [auto|discriminate].
  - rewrite (assoc_set_new _ key3_iff) by (apply (assoc_None _ key3_iff); auto). unfold c. 
    change (length (lp_cons m1)) with (num_cons m1). rewrite <- Hk. apply klinks_add; auto.
  - intros c'. rewrite in_app_iff, H6. simpl. split.
    + intros [[?|(l' & n' & k' & Hi & ->)]|[<-|[]]]; auto; right; [exists l', n', k'|exists l, n, k]; rewrite in_app_iff; simpl; auto.
    + intros [?|(l' & n' & k' & Hi & ->)]; auto. apply in_app_iff in Hi. destruct Hi as [Hi|[E|[]]]; [left; right; eauto|].
      injection E as <- <- <-. auto.
  - intros n' k'. rewrite V2, H7. split.
    + intros [(l' & Hi)|E]; [exists l'|injection E as -> ->; exists l]; apply in_app_iff; simpl; auto.
    + intros (l' & Hi). apply in_app_iff in Hi. destruct Hi as [Hi|[E|[]]]; [left; eauto|]. injection E as <- <- <-. auto.
Qed.

Lemma triples_same nodes : Forall2 same_node nodes nodes0 -> ns_triples leaves nodes = ns_triples leaves nodes0.
Proof.
  intros H. unfold ns_triples. apply flat_map_ext. intros lf. apply flat_map_ext. intros i.
  destruct (nth_error nodes i) as [nd|] eqn:E.
  - destruct (Forall2_nth_l _ _ _ _ _ H E) as (nd' & -> & [H1 H2]). rewrite H1, H2. reflexivity.
  - destruct (nth_error nodes0 i) as [nd'|] eqn:E'; auto. destruct (Forall2_nth_r _ _ _ _ _ H E') as (nd & H1 & _). congruence.
Qed.

Lemma leaf_nodes_known nodes : Forall2 same_node nodes nodes0 ->
  forall lf i, In lf leaves -> In i (l_left lf ++ l_right lf) -> i < length nodes.
Proof.
  intros H lf i Hlf Hi. apply complete_leaves_In in Hlf. destruct Hlf as (l & Hl & ->).
  rewrite (Forall2_length' _ _ _ H). destruct (wt_nodes _ _ _ _ wf) as [-> _]. apply (create_leaf_nodes l d Hl). auto.
Qed.

Lemma make_all_ns paths leaf_cons row_cons added m kinds nodes :
  Forall2 same_node nodes nodes0 -> Forall (plain_path d splits0) paths -> lp_ok cov paths [] kinds m ->
  links KLeaf leaf_cons kinds -> row_cons_ok kinds row_cons added -> (forall l n k, ~ In (KChoice l n k) kinds) ->
  exists st' kinds', for_ns leaves nodes (make_ns paths) (m, [], []) = Ok st' /\
    ns_ok paths leaf_cons row_cons added kinds (ns_triples leaves nodes0) st' m kinds'.
Proof.
  intros Hn Hp H1 H2 H3 H4. rewrite for_ns_flat by (apply leaf_nodes_known; auto). rewrite triples_same by auto.
  assert (Hnd : NoDup (ns_triples leaves nodes0)).
  { apply tree_triples_NoDup; [apply (wt_nodes _ _ _ _ wf)|]. intros n Hi. apply (wt_cands _ _ _ _ wf n Hi). }
  destruct (for_each_steps (ns_triples leaves nodes0) (fun t => make_ns paths (fst (fst t)) (snd (fst t)) (snd t))
    (fun u st => exists kinds', ns_ok paths leaf_cons row_cons added kinds u st m kinds') (m, [], [])) as (st' & E & kinds' & H).
  - exists kinds. split; auto. split; auto. split; auto. split; auto. split; [|split].
    + intros l n k c. simpl. split; [discriminate|]. intros E. exfalso. eapply H4. eapply nth_error_In; eauto.
    + intros c. split; auto. intros [?|(l & n & k & [] & _)]; auto.
    + intros n k. simpl. split; [tauto|]. intros (l & []).
  - intros u [[l n] k] v st Eu (kinds' & Hst). cbn [fst snd].
    destruct (make_ns_ok paths leaf_cons row_cons added m kinds u v l n k st kinds') as (st' & kinds'' & E & H); auto.
    + exact (eq_ind _ (@NoDup key3) Hnd _ Eu).
    + eauto.
  - eauto.
Qed.

(** * generate_mp *)

Lemma Forall2_ids_plain ps qs : Forall2 (fun p q => q = with_id p (p_id q)) ps qs -> Forall (plain_path d splits0) ps ->
  Forall (plain_path d splits0) qs.
Proof.
  intros H Hp. rewrite Forall_forall in *. intros q Hq. destruct (Forall2_In_r _ _ _ _ H Hq) as (p & Hpi & ->). apply plain_id. auto.
Qed.

Lemma lits_id p i : lits (create_leaf (p_leaf (with_id p i)) d) (with_id p i) = lits (create_leaf (p_leaf p) d) p.
Proof. reflexivity. Qed.

(** [rows] are the caller's rows, if any. *)
Definition rows_arg (rows : option (list row)) : Prop := match rows with None => True | Some l => fresh_rows l end.

Lemma generate_mp_ok paths beta cuts rounds rows y : Forall (plain_path d splits0) paths -> rows_arg rows ->
  exists s kinds, generate_mp X y (tmaster_init paths leaves nodes0 splits0 beta cuts rounds rows) = Ok s /\ tinv kinds [] s /\
    Forall2 (fun p q => q = with_id p (p_id q)) paths (tm_paths s) /\
    tm_beta_cuts s = beta /\ tm_gen_cuts s = cuts /\ tm_rounds s = rounds /\ tm_iter s = 0 /\ tm_cut_cons s = [] /\ tm_y s = y /\
    tm_obj s = 0%Q /\ tm_answer s = None /\ tm_selected s = None /\ tm_splits s = splits0 /\
    (exists rs, tm_rows s = Some rs /\
      (forall r, In (KRow r) kinds <-> beta = false /\ exists dr, nth_error rs r = Some dr /\ r_gone dr = false) /\
      match rows with
      | None => Forall2 (row_recorded (tm_paths s) (tm_nodes s)) X rs /\ tm_nodes s = map (preprocess_node d) nodes0
      | Some rows0 => Forall2 same_row rs rows0 /\ tm_nodes s = nodes0
      end).
Proof.
  intros Hp Hrows. unfold generate_mp. cbn [tm_generated tmaster_init tm_paths tm_leaves tm_splits tm_lp tm_rows tm_nodes tm_beta_cuts
    tm_gen_cuts tm_rounds tm_total_cuts tm_obj tm_prev tm_iter tm_values tm_answer tm_selected tm_calls].
  (* cut model *)
  unfold create_cut_gen_model.
  assert (Ecm : map_res (fun p => let* lf := getitem leaves (p_leaf p) in path_literals (length splits0) lf p) paths =
                Ok (map (fun p => lits (create_leaf (p_leaf p) d) p) paths)).
  { apply map_res_ok. intros p Hpi. rewrite Forall_forall in Hp. assert (Hl : p_leaf p < 2 ^ d) by apply (Hp p Hpi).
    unfold leaves. rewrite (getitem_nth _ _ _ (complete_leaves_nth d _ Hl)). cbn [bind]. apply (path_literals_ok d); auto. }
  rewrite Ecm. cbn [bind]. destruct (split_implications_ok splits0 (wt_distinct _ _ _ _ wf)) as (imps & Ei & Himps). rewrite Ei. cbn [bind].
  (* path variables *)
  destruct (make_path_vars paths empty_lp) as [m1 ps] eqn:Ev.
  destruct (make_path_vars_ok cov cov_id paths empty_lp [] (lp_ok_empty cov)) as (qs & E1 & L1 & M1 & F1).
  rewrite Ev in *. cbn [fst snd app] in *. subst ps.
  assert (Hq : Forall (plain_path d splits0) qs) by (eapply Forall2_ids_plain; eauto).
  assert (L2 : lp_ok cov qs [] [] (set_dir true m1)) by (apply lp_ok_dir; auto).
  assert (M2 : lp_max (set_dir true m1) = true) by reflexivity.
  destruct (make_leaf_cons_ok cov qs d (set_dir true m1)) as (m3 & lcs & k3 & E3 & L3 & M3 & N3 & K3 & I3); auto.
  fold leaves in E3. rewrite E3. cbn [bind].
  (* rows *)
  assert (Hrow : exists nodes rs,
    match rows with
    | None => preprocess_rows false X leaves nodes0 splits0 qs
    | Some rows => let* rows1 := compute_satisfied_paths X leaves splits0 qs rows in Ok (nodes0, rows1)
    end = Ok (nodes, rs) /\ Forall2 same_node nodes nodes0 /\ rows_ok qs rs /\
    match rows with
    | None => Forall2 (row_recorded qs nodes) X rs /\ nodes = map (preprocess_node d) nodes0
    | Some rows0 => Forall2 same_row rs rows0 /\ nodes = nodes0
    end).
  { destruct rows as [rows|].
    - destruct (compute_satisfied_paths_ok qs rows Hrows Hq) as (rs & Er & R1 & R2). exists nodes0, rs. rewrite Er. cbn [bind].
      split; auto. split; [apply Forall2_refl; split; auto|]. split; auto. apply rows_ok_intro; auto.
    - destruct (preprocess_rows_ok qs Hq) as (rs & Er & R1). exists (map (preprocess_node d) nodes0), rs. split; auto. split; [|split; auto].
      + clear. induction nodes0; constructor; auto. apply preprocess_node_same.
      + apply rows_ok_intro; auto. clear - R1. induction R1 as [|x dr xs drs H]; constructor; auto. apply H. }
  destruct Hrow as (nodes & rs & Er & Hn & Hrs & Hextra). rewrite Er. cbn [bind].
  destruct (make_row_cons_ok beta qs rs m3 k3 lcs) as (m4 & rcs & added & k4 & E4 & L4 & M4 & K4 & R4 & I4); auto.
  { apply Hrs. }
  rewrite E4. cbn [bind].
  destruct (make_all_ns qs lcs rcs added m4 k4 nodes) as ([[m5 vars] ncs] & k5 & E5 & L5 & M5 & K5 & R5 & KN5 & I5 & V5); auto.
  { intros l n k Hi. apply I4 in Hi. destruct Hi as [(l' & _ & E)|(r & dr & E & _)]; discriminate. }
  rewrite E5. cbn [bind]. eexists. exists k5. split; [reflexivity|].
  assert (Hrk : forall r, In (KRow r) k5 <-> beta = false /\ exists dr, nth_error rs r = Some dr /\ r_gone dr = false).
  { intros r. rewrite I5, I4. split.
    - intros [[(l & _ & E)|(r' & dr & E & E1 & E2 & E6)]|(l & n & k & _ & E)]; try discriminate. injection E as <-. eauto.
    - intros (E1 & dr & E2 & E6). left. right. exists r, dr. auto. }
  split; [|cbn; repeat (split; [solve [auto]|]); exists rs; auto].
  destruct R5 as (R5a & R5b & R5c & R5d).
  split; cbn; auto.
  - apply Forall2_refl. intros a. repeat split.
  - intros k sp Hsp. destruct (wt_fresh _ _ _ _ wf sp) as [-> ->]; [eapply nth_error_In; eauto|].
    split; [|split; [|split; constructor]]; intros c; (split; [intros []|]); intros (z & Hz & _); destruct c; discriminate.
  - congruence.
  - exists rs. split; auto. split; auto. intros r Hi. apply Hrk in Hi. apply Hi.
  - intros l. rewrite I5, I4. split.
    + intros [[(l' & Hl & E)|(r & dr & E & _)]|(l' & n & k & _ & E)]; try discriminate. injection E as <-. auto.
    + intros Hl. left. left. eauto.
  - lia.
  - intros l n k. rewrite I5, I4. split.
    + intros [[(l' & Hl & E)|(r & dr & E & _)]|(l' & n' & k' & Hi & E)]; try discriminate. injection E as <- <- <-. auto.
    + intros Hi. right. eauto.
  - intros n k. rewrite V5. split; intros (l & Hi); exists l.
    + apply I5. right. eauto.
    + apply I5 in Hi. destruct Hi as [Hi|(l' & n' & k' & Hi & E)].
      * apply I4 in Hi. destruct Hi as [(l' & _ & E)|(r & dr & E & _)]; discriminate.
      * injection E as <- <- <-. auto.
  - intros i c Hi. destruct i; discriminate.
  - intros c z Hc. apply nth_error_In in Hc. apply I5 in Hc. destruct Hc as [Hc|(l' & n' & k' & Hi & E)]; [|discriminate].
    apply I4 in Hc. destruct Hc as [(l' & _ & E)|(r & dr & E & _)]; discriminate.
  - constructor.
  - clear - F1. induction F1 as [|p q ps qs Hq F IH]; simpl; auto. rewrite IH, Hq. reflexivity.
Qed.
End Inv.

(** Solving the restricted tree master and arbitrary call sequences. *)
From Coq Require Import Qround.
From Verif Require Import Base Lp LpProofs TreeModel SpecTree SpecTreeRun TreeGeoProofs TreePathProofs TreeLpBuild TreeBuildProofs TreeGenProofs TreeInvProofs TreeOpProofs TreeCutProofs TreeFormProofs.
Open Scope nat_scope.

Definition frame (s s' : tmaster) : Prop :=
  tm_paths s' = tm_paths s /\ tm_nodes s' = tm_nodes s /\ tm_rows s' = tm_rows s /\ tm_beta_cuts s' = tm_beta_cuts s /\
  tm_gen_cuts s' = tm_gen_cuts s /\ tm_rounds s' = tm_rounds s /\ tm_ns_vars s' = tm_ns_vars s /\ tm_iter s' = tm_iter s /\
  tm_prev s' = tm_prev s /\ tm_y s' = tm_y s /\ tm_selected s' = tm_selected s.
Lemma frame_refl s : frame s s.
Proof. repeat split. Qed.
Lemma frame_trans a b c : frame a b -> frame b c -> frame a c.
Proof. unfold frame. intuition congruence. Qed.
Lemma frame_with_cons s m sp rc ad cc : frame s (with_cons s m sp rc ad cc).
Proof. repeat split. Qed.

Definition grows (beta : bool) (kinds kinds' : list ckind) : Prop :=
  exists e, kinds' = kinds ++ e /\ Forall (fun c => match c with KRow _ => beta = true | KCut _ => True | _ => False end) e.
Lemma grows_refl b k : grows b k k.
Proof. exists []. rewrite app_nil_r. auto. Qed.
Lemma grows_trans b k1 k2 k3 : grows b k1 k2 -> grows b k2 k3 -> grows b k1 k3.
Proof.
  intros (e1 & -> & H1) (e2 & -> & H2). exists (e1 ++ e2). rewrite app_assoc. split; auto. apply Forall_app. auto.
Qed.
Lemma grows_rows k new : grows true k (k ++ map KRow new).
Proof. exists (map KRow new). split; auto. apply Forall_forall. intros c Hc. apply in_map_iff in Hc. destruct Hc as (r & <- & _). auto. Qed.
Lemma grows_cuts b k new : grows b k (k ++ map KCut new).
Proof. exists (map KCut new). split; auto. apply Forall_forall. intros c Hc. apply in_map_iff in Hc. destruct Hc as (r & <- & _). auto. Qed.

Lemma with_new_cons_refl m : with_new_cons m m [].
Proof.
  split; auto. split; [reflexivity|]. split; [reflexivity|]. split; auto. exists (lp_cons m). rewrite app_nil_r. split; auto.
  apply Forall2_refl. intros k. repeat split.
Qed.

Lemma qsum_seq {A} (f : nat -> Q) (g : A -> Q) (l : list A) : forall k,
  (forall i a, nth_error l i = Some a -> (f (k + i)%nat == g a)%Q) -> (qsum f (seq k (length l)) == qsum g l)%Q.
Proof.
  induction l as [|a l IH]; intros k H; [reflexivity|]. cbn [length seq]. rewrite !qsum_cons. apply Qplus_comp.
  - rewrite <- (H 0 a eq_refl), Nat.add_0_r. reflexivity.
  - apply IH. intros i b Hb. rewrite <- (H (S i) b Hb). rewrite Nat.add_succ_r. reflexivity.
Qed.

Lemma beta_loop_num rows values : forall rs st num num' st', beta_loop rows values rs st num = Ok (num', st') ->
  num <= num' /\ (num' = num -> st' = st).
Proof.
  induction rs as [|r rs IH]; intros [[m cs] added] num num' st' E; cbn [beta_loop] in E.
  - injection E as <- <-. auto.
  - destruct (getitem rows r) as [dr|]; [|discriminate]. cbn [bind] in E. destruct (r_gone dr); [eauto|].
    destruct (10 <=? num); [injection E as <- <-; auto|].
    destruct (getitem added r) as [a|]; [|discriminate]. cbn [bind] in E. destruct a; [eauto|].
    destruct (violated_row_constraint values (r_paths dr)) as [v|]; [|discriminate]. cbn [bind] in E. destruct v; [|eauto].
    destruct (setitem added r true); [|discriminate]. cbn [bind] in E. unfold new_con in E. cbn iota beta zeta in E.
    destruct (setitem cs r _); [|discriminate]. cbn [bind] in E. apply IH in E. split; lia.
Qed.

Lemma add_beta_cuts_same s num s' : add_beta_cuts s = Ok (num, s') -> tm_answer s' = tm_answer s /\ (num = 0 -> tm_lp s' = tm_lp s).
Proof.
  unfold add_beta_cuts. destruct (assert _); [|discriminate]. cbn [bind]. destruct (tm_data_rows s); [|discriminate]. cbn [bind].
  destruct (beta_loop _ _ _ _ _) as [[n [[m cs] added]]|] eqn:E; [|discriminate]. cbn [bind]. intros E'. injection E' as <- <-.
  split; auto. intros ->. apply beta_loop_num in E. destruct E as [_ E]. specialize (E eq_refl). injection E as -> _ _. reflexivity.
Qed.

Lemma add_cuts_same sols s cuts s' : add_cuts sols s = Ok (cuts, s') -> tm_answer s' = tm_answer s /\ (cuts = [] -> s' = s).
Proof.
  unfold add_cuts. destruct (map_res _ _); [|discriminate]. cbn [bind].
  match goal with |- context [length ?l =? 0] => set (cs := l) end. intros E.
  destruct (length cs =? 0) eqn:El; [injection E as <- <-; auto|]. destruct (for_each (combine _ _) _ _); [|discriminate]. cbn [bind] in E.
  destruct (for_each cs _ _) as [[[? ?] ?]|]; [|discriminate]. cbn [bind] in E. injection E as <- <-. split; auto.
  intros Em. exfalso. apply Nat.eqb_neq in El. apply El. rewrite <- (map_length snd), Em. reflexivity.
Qed.

Section Run.
Variables (d : nat) (X : list sample) (nodes0 : list node) (splits0 : list split).
Hypothesis wf : wf_tree d X nodes0 splits0.
Notation leaves := (complete_leaves d).
Notation cov := (covb X (complete_leaves d) splits0).
Notation tinv := (tinv d X nodes0 splits0).

Lemma Forall_eq_list {A} (a : A) l m : Forall (eq a) l -> Forall (eq a) m -> length l = length m -> l = m.
Proof.
  intros H. revert m. induction H as [|b l <- H IH]; intros [|c m] Hm Hl; simpl in Hl; try discriminate; auto.
  inversion Hm; subst. f_equal. apply IH; auto.
Qed.

Lemma lp_ok_grow paths nsv kinds e m m' : lp_ok cov paths nsv kinds m -> lp_ok cov paths nsv (kinds ++ e) m' -> lp_max m = lp_max m' ->
  exists new, with_new_cons m m' new /\ Forall2 (con_ok cov paths nsv (num_vars m')) e new.
Proof.
  intros [Hv Hi Hk Ha Ho Hb Hb0 Hc] [Hv' _ _ Ha' Ho' Hb' Hb0' Hc'] Hmax.
  assert (En : num_vars m' = num_vars m).
  { assert (G : forall j, j < num_vars m' <-> j < num_vars m) by (intros j; rewrite <- Ha, <- Ha'; reflexivity).
    destruct (Nat.lt_trichotomy (num_vars m') (num_vars m)) as [H|[H|H]]; auto; apply G in H; lia. }
  apply Forall2_app_inv_l in Hc'. destruct Hc' as (old & new & H1 & H2 & E).
  exists new. split; auto. split; [eapply Forall_eq_list; eauto|]. split; [|split; [|split; [auto|]]].
  - intros j. destruct (in_dec Nat.eq_dec j (map p_id paths)) as [Hj|Hj].
    + apply in_map_iff in Hj. destruct Hj as (p & <- & Hp). rewrite Hb, Hb' by auto. reflexivity.
    + rewrite Hb0, Hb0' by auto. reflexivity.
  - rewrite Ho, Ho'. reflexivity.
  - exists old. split; auto. apply Forall2_intro_nth.
    + rewrite <- (Forall2_length' _ _ _ H1). symmetry. apply (Forall2_length' _ _ _ Hc).
    + intros i a b Hai Hbi. destruct (Forall2_nth_r _ _ _ _ _ Hc Hai) as (c & Hci & [A1 A2 A3 A4]).
      destruct (Forall2_nth_error _ _ _ _ _ H1 Hci) as (b' & Hb'' & [B1 B2 B3 B4]). assert (b' = b) by congruence. subst b'.
      split; [congruence|]. split; [congruence|]. intros j. destruct (Nat.lt_ge_cases j (num_vars m)) as [Hj|Hj].
      * apply Ha, in_app_iff in Hj. destruct Hj as [Hj|Hj]; apply in_map_iff in Hj.
        -- destruct Hj as (p & <- & Hp). rewrite A2, B2 by auto. reflexivity.
        -- destruct Hj as ([[n k] v] & <- & Hin). simpl. rewrite (A3 n k), (B3 n k) by auto. reflexivity.
      * rewrite A4, B4 by lia. reflexivity.
Qed.

Lemma tinv_grow kinds e zs zs' s s' : tinv kinds zs s -> tinv (kinds ++ e) zs' s' -> frame s s' ->
  exists new, with_new_cons (tm_lp s) (tm_lp s') new /\ length new = length e /\
    forall i c k x, nth_error e i = Some c -> nth_error new i = Some k -> (match c with KChoice _ _ _ => False | _ => True end) ->
      (activity (tm_lp s') k x == qsum (fun p => if cov c p then x (p_id p) else 0) (tm_paths s))%Q.
Proof.
  intros H H' Hf. destruct Hf as (F1 & _ & _ & _ & _ & _ & F2 & _).
  pose proof (ti_lp _ _ _ _ _ _ _ H) as L. pose proof (ti_lp _ _ _ _ _ _ _ H') as L'. rewrite F1, F2 in L'.
  destruct (lp_ok_grow _ _ _ _ _ _ L L') as (new & Hnew & Hcon).
  { rewrite (ti_max _ _ _ _ _ _ _ H), (ti_max _ _ _ _ _ _ _ H'). reflexivity. }
  exists new. split; auto. split; [symmetry; apply (Forall2_length' _ _ _ Hcon)|].
  intros i c k x Hc Hk Hkind. pose proof (tinv_formulation _ _ _ _ _ _ _ wf H') as F.
  destruct Hnew as (_ & _ & _ & _ & old & Eold & Hold).
  assert (El : length old = length kinds).
  { rewrite <- (Forall2_length' _ _ _ Hold). symmetry. apply (Forall2_length' _ _ _ (lo_cons _ _ _ _ _ L)). }
  rewrite (form_activity _ _ _ _ _ _ _ _ _ _ F (length kinds + i) c k x), F1.
  - destruct c; try contradiction; lra.
  - rewrite nth_error_app2, Nat.add_comm, Nat.add_sub by lia. auto.
  - rewrite Eold, nth_error_app2, <- El, Nat.add_comm, Nat.add_sub by lia. auto.
Qed.

(** * Violated constraints *)

Lemma cut_sum kinds zs s x cut z : tinv kinds zs s -> collected (tm_cutmodel s) (map (fun p => x (p_id p)) (tm_paths s)) (cut, z) ->
  (1 + teps < qsum (fun p => if cov (KCut z) p then x (p_id p) else 0) (tm_paths s))%Q.
Proof.
  intros H Hc. destruct (collected_pair d X nodes0 splits0 kinds zs s _ (cut, z) H (map_length _ _) Hc) as [_ Hcut]. cbn [fst snd] in Hcut.
  destruct Hc as (pz & _ & E & Hs). injection E as E1 E2. rewrite map_length in Hs, E1.
  eapply Qlt_le_trans; [exact Hs|]. apply Qle_lteq. right. apply qsum_seq. intros i p Hp. cbn [plus].
  assert (Hlt : i < length (tm_paths s)) by (apply nth_error_Some; congruence).
  assert (Eb : Some (fst pz i) = Some (cov (KCut z) p)).
  { transitivity (nth_error cut i).
    - rewrite E1, nth_error_map, seq_nth_error by auto. reflexivity.
    - rewrite Hcut, nth_error_map, Hp. reflexivity. }
  injection Eb as Eb. rewrite Eb. rewrite (nth_error_nth _ _ 0%Q (map_nth_error (fun p => x (p_id p)) _ _ Hp)). reflexivity.
Qed.

Lemma cut_off q : (1 + teps < q)%Q -> (teps < Qabs (q - 1))%Q.
Proof. intros H. eapply Qlt_le_trans; [|apply Qle_Qabs]. lra. Qed.

Lemma row_violated_off kinds zs s x rows r : tinv kinds zs s -> stored x s -> tm_rows s = Some rows -> row_violated (tm_values s) rows r true ->
  (teps < Qabs (qsum (fun p => if cov (KRow r) p then x (p_id p) else 0) (tm_paths s) - 1))%Q.
Proof.
  intros H Hx Hrows (dr & Hdr & _ & Hv). destruct (row_violated_sum d X nodes0 splits0 x kinds zs s rows r dr H Hx Hrows Hdr) as (b & Eb & Hb).
  assert (b = true) by congruence. apply Hb. auto.
Qed.

(** * One cut round *)

Lemma round_ok sv x s kinds zs : sound_solvers sv -> tinv kinds zs s -> stored x s ->
  exists num cuts s2 s3 rws,
    (if tm_beta_cuts s then add_beta_cuts s else Ok (0, s)) = Ok (num, s2) /\
    (if tm_gen_cuts s2 && (num =? 0) then add_cuts (tv_cuts sv (tm_calls s2)) s2 else Ok ([], s2)) = Ok (cuts, s3) /\
    num = length rws /\ num <= 10 /\
    tinv (kinds ++ map KRow rws ++ map KCut cuts) (zs ++ cuts) s3 /\ frame s s3 /\ grows (tm_beta_cuts s) kinds (kinds ++ map KRow rws ++ map KCut cuts) /\
    (num = 0 \/ cuts = []) /\
    exists new, with_new_cons (tm_lp s) (tm_lp s3) new /\ length new = length cuts + num /\ Forall (off_one (tm_lp s3) x) new.
Proof.
  intros Hsv H Hx.
  assert (S1 : exists num s2 rws, (if tm_beta_cuts s then add_beta_cuts s else Ok (0, s)) = Ok (num, s2) /\ num = length rws /\ num <= 10 /\
    tinv (kinds ++ map KRow rws) zs s2 /\ frame s s2 /\ grows (tm_beta_cuts s) kinds (kinds ++ map KRow rws) /\ stored x s2 /\ (num = 0 -> s2 = s \/ tinv kinds zs s2) /\
    tm_gen_cuts s2 = tm_gen_cuts s /\
    Forall (fun r => (teps < Qabs (qsum (fun p => if cov (KRow r) p then x (p_id p) else 0) (tm_paths s) - 1))%Q) rws).
  { destruct (tm_beta_cuts s) eqn:Eb.
    - destruct (add_beta_cuts_ok d X nodes0 splits0 x kinds zs s H Hx) as (num & s2 & E).
      destruct (add_beta_cuts_inv d X nodes0 splits0 kinds zs s num s2 H E) as (rws & rows & m & cs & added & Hr & -> & H2 & Hn & Hv & _ & Hten & _).
      exists num, (with_cons s m (tm_splits s) cs added (tm_cut_cons s)), rws. split; auto. split; auto. split; auto. split; auto.
      split; [apply frame_with_cons|]. split; [apply grows_rows|]. split; auto. split.
      + intros ->. right. destruct rws; [|discriminate]. rewrite app_nil_r in H2. auto.
      + split; auto. apply Forall_forall. intros r Hin. destruct (Hv r Hin) as (_ & _ & Hvr). eapply row_violated_off; eauto.
    - exists 0, s, []. simpl. rewrite app_nil_r. split; auto. split; auto. split; [lia|]. split; auto. split; [apply frame_refl|].
      split; [apply grows_refl|]. split; auto. }
  destruct S1 as (num & s2 & rws & E1 & Hn & Hten & H2 & F2 & G2 & Hx2 & _ & _ & V2).
  assert (S2 : exists cuts s3, (if tm_gen_cuts s2 && (num =? 0) then add_cuts (tv_cuts sv (tm_calls s2)) s2 else Ok ([], s2)) = Ok (cuts, s3) /\
    tinv ((kinds ++ map KRow rws) ++ map KCut cuts) (zs ++ cuts) s3 /\ frame s2 s3 /\ (num = 0 \/ cuts = []) /\
    Forall (fun z => (teps < Qabs (qsum (fun p => if cov (KCut z) p then x (p_id p) else 0) (tm_paths s) - 1))%Q) cuts).
  { destruct (tm_gen_cuts s2 && (num =? 0)) eqn:Eg.
    - destruct (add_cuts_ok d X nodes0 splits0 wf x _ zs s2 (tv_cuts sv (tm_calls s2)) H2 Hx2) as (cuts & m & sp & ad & cs & s3 & E & -> & H3 & Hc).
      { intros scaled. apply Hsv. }
      exists cuts, (with_cons s2 m sp (tm_row_cons s2) ad cs). split; auto. split; auto. split; [apply frame_with_cons|].
      apply andb_true_iff in Eg. split; [left; apply Nat.eqb_eq; apply Eg|].
      rewrite Forall_forall in Hc. apply Forall_forall. intros z Hz. destruct (Hc z Hz) as (cut & Hcut). apply cut_off.
      destruct F2 as (Fp & _). rewrite <- Fp. eapply cut_sum; eauto.
    - exists [], s2. simpl. rewrite !app_nil_r. split; auto. split; auto. split; [apply frame_refl|]. auto. }
  destruct S2 as (cuts & s3 & E2 & H3 & F3 & Hor & V3). rewrite <- app_assoc in H3.
  pose proof (frame_trans _ _ _ F2 F3) as F13.
  exists num, cuts, s2, s3, rws. split; auto. split; auto. split; auto. split; auto. split; auto. split; auto. split.
  { rewrite app_assoc. eapply grows_trans; [exact G2|apply grows_cuts]. }
  split; auto. destruct (tinv_grow _ _ _ _ _ _ H H3 F13) as (new & N1 & N2 & N3). exists new. split; auto. split.
  { rewrite N2, app_length, !map_length. lia. }
  apply Forall_forall. intros k Hk. apply In_nth_error in Hk. destruct Hk as [i Hi].
  destruct (nth_error (map KRow rws ++ map KCut cuts) i) as [c|] eqn:Ec.
  2:{ apply nth_error_None in Ec. rewrite <- N2 in Ec. apply nth_error_None in Ec. congruence. }
  assert (Hin : In c (map KRow rws ++ map KCut cuts)) by (eapply nth_error_In; eauto).
  unfold off_one. apply in_app_iff in Hin. destruct Hin as [Hin|Hin]; apply in_map_iff in Hin; destruct Hin as (a & <- & Ha);
    rewrite (N3 i _ k x Ec Hi I); [rewrite Forall_forall in V2; apply V2|rewrite Forall_forall in V3; apply V3]; auto.
Qed.

(** * All rounds *)

Definition answered (sv : tsolvers) (s : tmaster) : Prop := forall a, tm_answer s = Some a -> exists i, tv_lp sv i (tm_lp s) = Some a.

Lemma cut_rounds_ok sv : sound_solvers sv -> forall n s kinds zs new, tinv kinds zs s -> answered sv s ->
  exists kinds' cuts s' j, cut_rounds sv n s new = Ok (new ++ cuts, s') /\ tinv kinds' (zs ++ cuts) s' /\ frame s s' /\
    grows (tm_beta_cuts s) kinds kinds' /\ j <= n /\ strengthened sv j (tm_lp s) (tm_lp s') /\ answered sv s'.
Proof.
  intros Hsv. induction n as [|n IH]; intros s kinds zs new H Ha.
  - exists kinds, [], s, 0. simpl. rewrite !app_nil_r. split; auto. split; auto. split; [apply frame_refl|]. split; [apply grows_refl|].
    split; auto. split; auto. constructor. apply with_new_cons_refl.
  - cbn [cut_rounds]. destruct (tm_answer s) as [[x pi]|] eqn:Eans.
    2:{ exists kinds, [], s, 0. rewrite !app_nil_r. split; auto. split; auto. split; [apply frame_refl|]. split; [apply grows_refl|].
        split; [lia|]. split; auto. constructor. apply with_new_cons_refl. }
    destruct (tinv_store d X nodes0 splits0 kinds zs s x H) as [H1 Hx1].
    destruct (round_ok sv x (store_lp_solution x s) kinds zs Hsv H1 Hx1)
      as (num & cuts & s2 & s3 & rws & E1 & E2 & Hn & Hten & H3 & F3 & G3 & Hor & nw & N1 & N2 & N3).
    rewrite E1. cbn [bind]. rewrite E2. cbn [bind].
    assert (F13 : frame s s3) by (eapply frame_trans; [|exact F3]; repeat split).
    assert (A3 : tm_answer s3 = Some (x, pi) /\ (num = 0 -> cuts = [] -> tm_lp s3 = tm_lp s)).
    { assert (A2 : tm_answer s2 = tm_answer s /\ (num = 0 -> tm_lp s2 = tm_lp s)).
      { destruct (tm_beta_cuts (store_lp_solution x s)); [apply add_beta_cuts_same in E1; exact E1|injection E1 as _ <-; auto]. }
      assert (A3 : tm_answer s3 = tm_answer s2 /\ (cuts = [] -> s3 = s2)).
      { destruct (tm_gen_cuts s2 && (num =? 0)); [apply add_cuts_same in E2; exact E2|injection E2 as _ <-; auto]. }
      destruct A2 as [A2 A2'], A3 as [A3 A3']. split; [rewrite A3, A2; exact Eans|]. intros Z1 Z2. rewrite A3' by auto. auto. }
    destruct ((0 <? length cuts) || (0 <? num)) eqn:Ego.
    + assert (H5 : tinv (kinds ++ map KRow rws ++ map KCut cuts) (zs ++ cuts) (solve_lp sv (add_total (length cuts + num) s3)))
        by (apply tinv_solve, tinv_total; auto).
      destruct (IH (solve_lp sv (add_total (length cuts + num) s3)) _ _ (new ++ cuts) H5) as (k' & cuts' & s' & j & E & H' & F' & G' & Hj & St & A').
      { intros a Ea. eexists. exact Ea. }
      exists k', (cuts ++ cuts'), s', (S j). rewrite !app_assoc, E. split; auto. split; [rewrite <- app_assoc in H'; rewrite <- app_assoc; auto|].
      split; [eapply frame_trans; [exact F13|]; eapply frame_trans; [|exact F']; repeat split|].
      assert (Eb : tm_beta_cuts s3 = tm_beta_cuts s) by apply F13.
      split; [eapply grows_trans; [exact G3|]; cbn in G'; rewrite Eb in G'; exact G'|].
      split; [lia|]. split; auto. destruct (Ha (x, pi) Eans) as [i Hi].
      eapply st_round; [exact Hi|exact N1| |exact N3|exact St]. intros ->. simpl in N2.
      apply orb_true_iff in Ego. rewrite !Nat.ltb_lt in Ego. lia.
    + exists (kinds ++ map KRow rws ++ map KCut cuts), [], (add_total (length cuts + num) s3), 0.
      apply orb_false_iff in Ego. rewrite !Nat.ltb_ge in Ego. assert (length cuts = 0 /\ num = 0) as [Z1 Z2] by lia.
      destruct cuts; [|discriminate]. destruct rws; [|simpl in Hn; lia]. simpl in *. rewrite !app_nil_r in *.
      split; auto. split; [apply tinv_total; auto|]. split; [eapply frame_trans; [exact F13|]; repeat split|]. split; auto.
      split; [lia|]. assert (Hnw : nw = []) by (destruct nw; simpl in N2; [auto|lia]). subst nw. split; [constructor; exact N1|].
      intros a Ea. destruct A3 as [A3 A3']. cbn in Ea. assert (a = (x, pi)) by congruence. subst a. cbn. rewrite A3' by auto. auto.
Qed.

(** * Duals *)

Lemma map_res_total {A B} (f : A -> res B) l : (forall a, In a l -> exists b, f a = Ok b) -> exists l', map_res f l = Ok l' /\ Forall2 (fun a b => f a = Ok b) l l'.
Proof.
  induction l as [|a l IH]; intros H; [exists []; simpl; auto|]. destruct (H a) as [b Eb]; [simpl; auto|].
  destruct IH as (l' & E & F); [intros; apply H; simpl; auto|]. exists (b :: l'). simpl. rewrite Eb. cbn [bind]. rewrite E. cbn [bind].
  split; auto.
Qed.

Lemma read_duals_ok pi new kinds zs s : tinv kinds zs s ->
  exists dl, read_duals pi new s = Ok dl /\ d_new_cuts dl = new /\
    reports (2 ^ d) (length X) kinds zs (tm_cut_cons s) pi dl.
Proof.
  intros H. unfold read_duals. rewrite (ti_leaves _ _ _ _ _ _ _ H), complete_leaves_length, (ti_X _ _ _ _ _ _ _ H).
  pose proof (ti_leaf _ _ _ _ _ _ _ H) as Hlk. pose proof (ti_row _ _ _ _ _ _ _ H) as Hrk.
  assert (Hcd : forall mk cs i, links mk cs kinds -> In (mk i) kinds -> exists c, nth_error kinds c = Some (mk i) /\ con_dual pi cs i = Ok (pi c)).
  { intros mk cs i Hl Hin. apply In_nth_error in Hin. destruct Hin as [c Hc]. exists c. split; auto. unfold con_dual.
    apply Hl in Hc. rewrite (getitem_nth _ _ _ Hc). reflexivity. }
  destruct (map_res_total (con_dual pi (tm_leaf_cons s)) (seq 0 (2 ^ d))) as (dls & E1 & F1).
  { intros l Hl. apply in_seq in Hl. destruct (Hcd KLeaf (tm_leaf_cons s) l Hlk) as (c & _ & E); [apply (ti_leaf_in _ _ _ _ _ _ _ H); lia|]. eauto. }
  rewrite E1. cbn [bind].
  set (fr := fun r => let* a := getitem (tm_added s) r in if (a : bool) then con_dual pi (tm_row_cons s) r else Ok 0%Q).
  assert (Hfr : forall r, r < length X -> (In (KRow r) kinds -> exists c, nth_error kinds c = Some (KRow r) /\ fr r = Ok (pi c)) /\
                                       (~ In (KRow r) kinds -> fr r = Ok 0%Q)).
  { intros r Hr. pose proof (ti_added_len _ _ _ _ _ _ _ H) as Hal. destruct (getitem_lt (tm_added s) r) as [a Ea]; [lia|].
    unfold fr. rewrite Ea. cbn [bind]. apply getitem_ok in Ea. pose proof (ti_added _ _ _ _ _ _ _ H r Hr) as Hadd. split; intros Hin.
    - assert (a = true) by (apply Hadd in Hin; congruence). subst a. apply Hcd; auto.
    - destruct a; auto. exfalso. apply Hin, Hadd. auto. }
  destruct (map_res_total fr (seq 0 (length X))) as (drs & E2 & F2).
  { intros r Hr. apply in_seq in Hr. destruct (Hfr r) as [A B]; [lia|].
    destruct (nth_error (tm_added s) r) as [[|]|] eqn:Ea.
    - destruct A as (c & _ & E); eauto. apply (ti_added _ _ _ _ _ _ _ H); auto. lia.
    - eexists. apply B. intros Hin. apply (ti_added _ _ _ _ _ _ _ H) in Hin; [congruence|lia].
    - eexists. apply B. intros Hin. apply (ti_added _ _ _ _ _ _ _ H) in Hin; [congruence|lia]. }
  rewrite E2. cbn [bind].
  pose proof (ti_nodes _ _ _ _ _ _ _ H) as Hn. pose proof (ti_ns _ _ _ _ _ _ _ H) as Hk. pose proof (ti_ns_in _ _ _ _ _ _ _ H) as Hi.
  rewrite for_ns_flat by (apply (leaf_nodes_known d X nodes0 splits0 wf); auto). rewrite (triples_same d nodes0) by auto.
  assert (Hnd : NoDup (ns_triples leaves nodes0)).
  { apply tree_triples_NoDup; [apply (wt_nodes _ _ _ _ wf)|]. intros n Hin. apply (wt_cands _ _ _ _ wf); auto. }
  destruct (for_each_steps (ns_triples leaves nodes0)
    (fun t dd => let* c := lookup key3_eqb (tm_ns_cons s) (fst (fst t), snd (fst t), snd t) in
                 Ok (assoc_set key3_eqb dd (fst (fst t), snd (fst t), snd t) (pi c)))
    (fun u dd => map fst dd = u /\ forall l n k q, assoc key3_eqb dd (l, n, k) = Some q <-> In (l, n, k) u /\
                            exists i, nth_error kinds i = Some (KChoice l n k) /\ q = pi i) []) as (ns & E3 & N1 & N2).
  { split; auto. intros l n k q. simpl. split; [discriminate|intros [[] _]]. }
  { intros u [[l n] k] w dd Eu [D1 D2]. cbn [fst snd].
    assert (Ht : In (l, n, k) (ns_triples leaves nodes0)) by (exact (eq_ind_r (fun z => In (l, n, k) z) (in_elt (l, n, k) u w) Eu)).
    apply Hi in Ht. apply In_nth_error in Ht. destruct Ht as [c Hc]. pose proof (proj2 (Hk l n k c) Hc) as Hc'.
    assert (Hc2 : lookup key3_eqb (tm_ns_cons s) (l, n, k) = Ok c) by (unfold lookup; rewrite Hc'; reflexivity).
    rewrite Hc2. cbn [bind]. eexists. split; [reflexivity|].
    assert (Hnew : ~ In (l, n, k) (map fst dd)).
    { rewrite D1. intros Hin. pose proof (eq_ind _ (@NoDup key3) Hnd _ Eu) as Hnd'. apply (NoDup_app_disj _ _ _ Hnd' Hin). simpl. auto. }
    rewrite (assoc_set_new _ key3_iff) by auto. split; [rewrite map_app, D1; reflexivity|].
    intros l' n' k' q. rewrite assoc_app.
    destruct (assoc key3_eqb dd (l', n', k')) as [q'|] eqn:Eq.
    - rewrite <- Eq, D2, in_app_iff. split; [intuition|]. intros [[?|Hin] Hx]; [auto|]. destruct Hin as [Eqk|[]]. injection Eqk as -> -> ->.
      exfalso. apply Hnew. apply (assoc_In _ key3_iff) in Eq. change (l', n', k') with (fst (l', n', k', q')). apply in_map. auto.
    - destruct (key3_eqb (l, n, k) (l', n', k')) eqn:E4.
      + apply key3_iff in E4. injection E4 as <- <- <-. split.
        * intros E5. injection E5 as <-. split; [apply in_app_iff; simpl; auto|eauto].
        * intros [_ (i & Hin & ->)]. apply Hk in Hin. congruence.
      + split; [discriminate|]. intros [Hin Hx]. apply in_app_iff in Hin. destruct Hin as [Hin|[Eqk|[]]].
        * assert (Eq' : assoc key3_eqb dd (l', n', k') = Some q) by (apply D2; auto). congruence.
        * assert (key3_eqb (l, n, k) (l', n', k') = true) by (apply key3_iff; auto). congruence. }
  assert (E3' : for_each (ns_triples leaves nodes0) (fun t a => let* c := lookup key3_eqb (tm_ns_cons s) (fst (fst t), snd (fst t), snd t) in
      Ok (assoc_set key3_eqb a (fst (fst t), snd (fst t), snd t) (pi c))) [] = Ok ns) by exact E3.
  rewrite E3'. cbn [bind]. eexists. split; [reflexivity|]. split; [reflexivity|]. split; cbn.
  - rewrite <- (Forall2_length' _ _ _ F1), seq_length. auto.
  - intros l i Hin. assert (Hl : l < 2 ^ d) by (apply (ti_leaf_in _ _ _ _ _ _ _ H); eapply nth_error_In; eauto).
    destruct (Forall2_nth_error _ _ _ l l F1) as (q & Hq & Eq); [apply seq_nth_error; auto|].
    rewrite Hq. unfold con_dual in Eq. apply Hlk in Hin. rewrite (getitem_nth _ _ _ Hin) in Eq. cbn [bind] in Eq. congruence.
  - rewrite <- (Forall2_length' _ _ _ F2), seq_length. auto.
  - intros r i Hin. assert (Hr : r < length X).
    { destruct (ti_rows _ _ _ _ _ _ _ H) as (rows & _ & [Hrl _] & Hg). destruct (Hg r) as (dr & Hdr & _); [eapply nth_error_In; eauto|].
      rewrite <- Hrl. apply nth_error_Some. congruence. }
    destruct (Forall2_nth_error _ _ _ r r F2) as (q & Hq & Eq); [apply seq_nth_error; auto|].
    rewrite Hq. destruct (Hfr r Hr) as [A _]. destruct A as (c & Hc & Ec); [eapply nth_error_In; eauto|].
    assert (c = i) by (eapply (links_once KRow); eauto). subst c. congruence.
  - intros r Hr Hin. destruct (Forall2_nth_error _ _ _ r r F2) as (q & Hq & Eq); [apply seq_nth_error; auto|].
    rewrite Hq. destruct (Hfr r Hr) as [_ B]. rewrite (B Hin) in Eq. congruence.
  - intros l n k q. rewrite N2. split; [intuition|]. intros (i & Hin & ->). split; [apply Hi; eapply nth_error_In; eauto|eauto].
  - rewrite N1. auto.
  - reflexivity.
  - split; [apply (ti_cut_once _ _ _ _ _ _ _ H)|]. apply Forall2_intro_nth; [apply (ti_cut_len _ _ _ _ _ _ _ H)|].
    intros i c z Hc Hz. destruct (ti_cut _ _ _ _ _ _ _ H i c Hc) as (z' & Hz' & Hk'). congruence.
  - intros i z Hin. destruct (ti_cut_in _ _ _ _ _ _ _ H i z Hin) as [j Hj]. eapply nth_error_In; eauto.
Qed.

(** * solve_rmp *)

Definition frame' (s s' : tmaster) : Prop :=
  tm_paths s' = tm_paths s /\ tm_nodes s' = tm_nodes s /\ tm_rows s' = tm_rows s /\ tm_beta_cuts s' = tm_beta_cuts s /\
  tm_gen_cuts s' = tm_gen_cuts s /\ tm_rounds s' = tm_rounds s /\ tm_ns_vars s' = tm_ns_vars s.

Lemma solve_rmp_ok sv kinds zs s : sound_solvers sv -> tinv kinds zs s ->
  exists kinds' cuts s' dl j, solve_rmp sv s = Ok (dl, s') /\ tinv kinds' (zs ++ cuts) s' /\ frame' s s' /\ grows (tm_beta_cuts s) kinds kinds' /\
    d_new_cuts dl = cuts /\ tm_iter s' = S (tm_iter s) /\ tm_prev s' = tm_obj s /\
    j <= (if S (tm_iter s) mod 10 =? 0 then tm_rounds s else 0) /\ strengthened sv j (tm_lp s) (tm_lp s') /\
    (S (tm_iter s) mod 10 =? 0 = false -> kinds' = kinds /\ cuts = [] /\ tm_lp s' = tm_lp s) /\
    match tm_answer s' with
    | Some (x, pi) => (exists i, tv_lp sv i (tm_lp s') = Some (x, pi)) /\ tm_obj s' = objective_value (tm_lp s') x /\
                      reports (2 ^ d) (length X) kinds' (zs ++ cuts) (tm_cut_cons s') pi dl /\ stored x s'
    | None => dl = mkDuals [] [] [] [] cuts
    end.
Proof.
  intros Hsv H. unfold solve_rmp. rewrite (ti_gen _ _ _ _ _ _ _ H). cbn [bind assert].
  set (s1 := solve_lp sv (start_iter s)).
  assert (H1 : tinv kinds zs s1) by (apply tinv_solve, tinv_start; auto).
  assert (A1 : answered sv s1) by (intros a Ea; eexists; exact Ea).
  assert (S2 : exists kinds' cuts s2 j, (if tm_iter s1 mod 10 =? 0 then cut_rounds sv (tm_rounds s1) s1 [] else Ok ([], s1)) = Ok (cuts, s2) /\
    tinv kinds' (zs ++ cuts) s2 /\ frame s1 s2 /\ grows (tm_beta_cuts s) kinds kinds' /\ j <= (if S (tm_iter s) mod 10 =? 0 then tm_rounds s else 0) /\
    strengthened sv j (tm_lp s) (tm_lp s2) /\ answered sv s2 /\ (S (tm_iter s) mod 10 =? 0 = false -> kinds' = kinds /\ cuts = [] /\ tm_lp s2 = tm_lp s)).
  { change (tm_iter s1) with (S (tm_iter s)). destruct (S (tm_iter s) mod 10 =? 0).
    - destruct (cut_rounds_ok sv Hsv (tm_rounds s1) s1 kinds zs [] H1 A1) as (k' & cuts & s2 & j & E & H2 & F2 & G2 & Hj & St & A2).
      exists k', cuts, s2, j. split; auto. split; auto. split; auto. split; auto. split; auto. split; auto. split; auto. discriminate.
    - exists kinds, [], s1, 0. rewrite app_nil_r. split; auto. split; auto. split; [apply frame_refl|]. split; [apply grows_refl|]. split; auto.
      split; [constructor; apply with_new_cons_refl|]. split; auto. }
  destruct S2 as (k' & cuts & s2 & j & E2 & H2 & F2 & G2 & Hj & St & A2 & Hno). rewrite E2. cbn [bind].
  assert (Ff : frame' s s2).
  { destruct F2 as (f1 & f2 & f3 & f4 & f5 & f6 & f7 & _). cbn in *. repeat split; auto. }
  assert (Fi : tm_iter s2 = S (tm_iter s) /\ tm_prev s2 = tm_obj s).
  { destruct F2 as (_ & _ & _ & _ & _ & _ & _ & f8 & f9 & _). cbn in *. auto. }
  destruct (tm_answer s2) as [[x pi]|] eqn:Ea.
  - destruct (tinv_store d X nodes0 splits0 k' (zs ++ cuts) s2 x H2) as [H3 Hx].
    destruct (read_duals_ok pi cuts k' (zs ++ cuts) (store_lp_solution x s2) H3) as (dl & Ed & En & Hr). rewrite Ed. cbn [bind].
    exists k', cuts, (store_lp_solution x s2), dl, j. split; auto. split; auto. split; [exact Ff|]. split; auto. split; auto.
    split; [apply Fi|]. split; [apply Fi|]. split; auto. split; auto. split; auto. cbn [tm_answer store_lp_solution]. rewrite Ea.
    split; [apply A2; auto|]. split; [reflexivity|]. split; auto.
  - exists k', cuts, s2, (mkDuals [] [] [] [] cuts), j. split; auto. split; auto. split; auto. split; auto. split; auto.
    split; [apply Fi|]. split; [apply Fi|]. split; auto. split; auto. split; auto. rewrite Ea. reflexivity.
Qed.

(** * Arbitrary calls *)

Lemma lookups_or_error s : (exists c, map_res (fun p => lookup Nat.eqb (tm_values s) (p_id p)) (tm_paths s) = Ok c) \/
  (exists e, map_res (fun p => lookup Nat.eqb (tm_values s) (p_id p)) (tm_paths s) = Err e).
Proof. destruct (map_res _ _); eauto. Qed.

Definition not_gone (s : tmaster) (r : nat) : Prop := exists rows dr, tm_rows s = Some rows /\ nth_error rows r = Some dr /\ r_gone dr = false.

Lemma not_gone_same s s' r : (forall rows, tm_rows s = Some rows -> exists rows', tm_rows s' = Some rows' /\ Forall2 same_row rows' rows) ->
  (exists rows, tm_rows s = Some rows) -> (not_gone s r <-> not_gone s' r).
Proof.
  intros Hs [rows Hrows]. destruct (Hs rows Hrows) as (rows' & Hrows' & F). unfold not_gone. split.
  - intros (rs & dr & E & Hdr & Hg). assert (rs = rows) by congruence. subst rs. destruct (Forall2_nth_r _ _ _ _ _ F Hdr) as (dr' & Hdr' & Hsame).
    exists rows', dr'. split; auto. split; auto. destruct Hsame as (_ & _ & _ & _ & Eg & _). congruence.
  - intros (rs & dr & E & Hdr & Hg). assert (rs = rows') by congruence. subst rs. destruct (Forall2_nth_l _ _ _ _ _ F Hdr) as (dr' & Hdr' & Hsame).
    exists rows, dr'. split; auto. split; auto. destruct Hsame as (_ & _ & _ & _ & Eg & _). congruence.
Qed.

Lemma Forall2_same_row_refl l : Forall2 same_row l l.
Proof. apply Forall2_refl. intros a. repeat split. Qed.

Lemma do_op_inv o s kinds zs cuts s' : legal d splits0 o -> tinv kinds zs s -> do_op o s = Ok (cuts, s') ->
  exists kinds', tinv kinds' (zs ++ cuts) s' /\ incl kinds kinds' /\ tm_beta_cuts s' = tm_beta_cuts s /\
    Forall2 (fun p q => q = with_id p (p_id q)) (tm_paths s ++ columns [o]) (tm_paths s') /\
    (forall rows, tm_rows s = Some rows -> exists rows', tm_rows s' = Some rows' /\ Forall2 same_row rows' rows).
Proof.
  intros Hl H E. assert (Hid : Forall2 (fun p q => q = with_id p (p_id q)) (tm_paths s) (tm_paths s)).
  { apply Forall2_refl. intros []. reflexivity. }
  assert (Hrr : forall rows, tm_rows s = Some rows -> exists rows', tm_rows s = Some rows' /\ Forall2 same_row rows' rows).
  { intros rows Hr. exists rows. split; auto. apply Forall2_same_row_refl. }
  destruct o as [p| |sols|x|sv|ans|X' y']; cbn [do_op] in E; cbn [columns flat_map app] in *; try rewrite app_nil_r.
  - destruct (add_column_ok d X nodes0 splits0 wf kinds zs s p H Hl) as (s1 & E1 & H1 & Hp & _ & _ & _ & _ & _ & _ & Hb & _ & _ & _ & _ & _ & _ & Hr).
    rewrite E1 in E. cbn [bind] in E. injection E as <- <-. exists kinds. rewrite app_nil_r. split; auto. split; [apply incl_refl|]. split; auto.
    split; auto. rewrite Hp. apply Forall2_app; auto.
  - destruct (add_beta_cuts s) as [[num s1]|] eqn:E1; [|discriminate]. cbn [bind] in E. injection E as <- <-.
    destruct (add_beta_cuts_inv d X nodes0 splits0 kinds zs s num s1 H E1) as (new & rows & m & cs & added & Hr & -> & H2 & Hn & _).
    exists (kinds ++ map KRow new). rewrite app_nil_r. split; auto. split; [|split; auto]. apply incl_appl, incl_refl.
  - destruct (lookups_or_error s) as [[co Ec]|[e Ee]].
    + destruct (add_cuts_from d X nodes0 splits0 wf co kinds zs s sols H Ec) as (new & m & sp & ad & cs & s1 & E1 & -> & H1 & _); [intros; apply Hl|].
      rewrite E1 in E. injection E as <- <-. exists (kinds ++ map KCut new). split; auto. split; [|split; auto]. apply incl_appl, incl_refl.
    + unfold add_cuts in E. rewrite Ee in E. discriminate.
  - injection E as <- <-. exists kinds. rewrite app_nil_r. split; [apply tinv_store; auto|]. split; [apply incl_refl|]. split; auto.
  - destruct (solve_rmp_ok sv kinds zs s Hl H) as (k' & cuts' & s1 & dl & j & E1 & H1 & F1 & G1 & Hn & _). rewrite E1 in E. cbn [bind] in E.
    injection E as <- <-. exists k'. rewrite Hn. split; auto. split.
    { destruct G1 as (e & -> & _). apply incl_appl, incl_refl. }
    destruct F1 as (f1 & f2 & f3 & f4 & _). split; auto. rewrite f1, f3. auto.
  - unfold solve_ip in E. rewrite (ti_gen _ _ _ _ _ _ _ H) in E. cbn [assert bind] in E. destruct ans as [x|]; [|discriminate]. cbn [bind] in E.
    injection E as <- <-. exists kinds. rewrite app_nil_r. split; [apply tinv_selected; auto|]. split; [apply incl_refl|]. split; auto.
  - unfold generate_mp in E. rewrite (ti_gen _ _ _ _ _ _ _ H) in E. cbn [bind] in E. injection E as <- <-.
    exists kinds. rewrite app_nil_r. split; auto. split; [apply incl_refl|]. split; auto.
Qed.

Lemma with_ids_trans l1 l2 l3 : Forall2 (fun p q => q = with_id p (p_id q)) l1 l2 -> Forall2 (fun p q => q = with_id p (p_id q)) l2 l3 ->
  Forall2 (fun p q => q = with_id p (p_id q)) l1 l3.
Proof.
  apply Forall2_trans'. intros a b c E1 E2. rewrite E1 in E2. exact E2.
Qed.

Lemma run_ops_inv ops : forall s kinds zs cuts s', Forall (legal d splits0) ops -> tinv kinds zs s -> run_ops ops s = Ok (cuts, s') ->
  exists kinds', tinv kinds' (zs ++ cuts) s' /\ incl kinds kinds' /\ tm_beta_cuts s' = tm_beta_cuts s /\
    Forall2 (fun p q => q = with_id p (p_id q)) (tm_paths s ++ columns ops) (tm_paths s') /\
    (forall rows, tm_rows s = Some rows -> exists rows', tm_rows s' = Some rows' /\ Forall2 same_row rows' rows).
Proof.
  induction ops as [|o ops IH]; intros s kinds zs cuts s' Hl H E.
  - cbn [run_ops] in E. injection E as <- <-. exists kinds. rewrite app_nil_r. split; auto. split; [apply incl_refl|]. split; auto. split.
    + cbn. rewrite app_nil_r. apply Forall2_refl. intros []. reflexivity.
    + intros rows Hr. exists rows. split; auto. apply Forall2_same_row_refl.
  - cbn [run_ops] in E. destruct (do_op o s) as [[c1 s1]|] eqn:E1; [|discriminate]. cbn [bind] in E.
    destruct (run_ops ops s1) as [[c2 s2]|] eqn:E2; [|discriminate]. cbn [bind] in E. injection E as <- <-.
    inversion Hl as [|? ? Ho Hos]; subst.
    destruct (do_op_inv o s kinds zs c1 s1 Ho H E1) as (k1 & H1 & I1 & B1 & P1 & R1).
    destruct (IH s1 k1 _ c2 s2 Hos H1 E2) as (k2 & H2 & I2 & B2 & P2 & R2).
    exists k2. rewrite app_assoc. split; auto. split; [eapply incl_tran; eauto|]. split; [congruence|]. split.
    + change (columns (o :: ops)) with (columns [o] ++ columns ops) || idtac.
      assert (Ec : columns (o :: ops) = columns [o] ++ columns ops) by (unfold columns; cbn; rewrite app_nil_r; reflexivity).
      rewrite Ec, app_assoc. eapply with_ids_trans; [|exact P2]. apply Forall2_app; auto. apply Forall2_refl. intros []. reflexivity.
    + intros rows Hr. destruct (R1 rows Hr) as (rows1 & Hr1 & F1). destruct (R2 rows1 Hr1) as (rows2 & Hr2 & F2). exists rows2. split; auto.
      eapply Forall2_trans'; [|exact F2|exact F1]. intros a b c (?&?&?&?&?&?&?) (?&?&?&?&?&?&?). repeat split; congruence.
Qed.
End Run.

(** The pricing models are the intended 0/1 programs, after every sequence of updates. *)
From Verif Require Import Base Lp LpProofs TreeModel SpecTree SpecTreeRun SpecTreeLp SpecTreePrice TreePricingModel TreeGeoProofs
  TreePathProofs TreeLpBuild TreeBuildProofs TreeInvProofs TreeOpProofs TreeMasterProofs TreeHeurProofs TreeSymProofs.
Open Scope nat_scope.

Definition is_old (c : pclass) : bool := match c with COld _ => true | _ => false end.

Lemma assoc2_set {A} (d : list (key2 * A)) k a k' :
  assoc key2_eqb (assoc_set key2_eqb d k a) k' = if key2_eqb k k' then Some a else assoc key2_eqb d k'.
Proof.
  induction d as [|[k1 a1] d IH]; cbn [assoc_set assoc]; [reflexivity|].
  destruct (key2_eqb k1 k) eqn:E1; cbn [assoc].
  - apply key2_iff in E1. subst k1. destruct (key2_eqb k k') eqn:E2; auto.
  - rewrite IH. destruct (key2_eqb k1 k') eqn:E2; auto. apply key2_iff in E2. subst k1. destruct (key2_eqb k k') eqn:E3; auto.
    apply key2_iff in E3. subst k'. assert (key2_eqb k k = true) by (apply key2_iff; auto). congruence.
Qed.

Section Model.
Variables (u : setup) (c : pclass) (l nt : nat).
Hypotheses (V : valid_setup u) (D : valid_data u) (Hl : l < 2 ^ su_depth u).
Hypothesis Hnt : is_old c = false -> Forall (fun t => t < nt) (su_y u).
Let lf := create_leaf l (su_depth u).
Let n_rows := length (su_X u).

Definition ids : list nat := l_left lf ++ l_right lf.
Definition cands (n : nat) : list nat := match nth_error (su_nodes u) n with Some nd => n_cands nd | None => [] end.
Definition wt (i : nat) : option nat := wt_of (su_rows u) i.
Definition row_left (i k : nat) : bool := goes_left (su_splits u) (nth i (su_X u) []) k.
Definition cut_left (z : list bool) (k : nat) : bool := nth k z false.
(** The candidates of node [n] at which a row takes the branch towards the leaf. *)
Definition good (goes : nat -> bool) (n : nat) : list nat := filter (fun k => Bool.eqb (goes k) (memb n (l_left lf))) (cands n).

(** * The program *)

Definition row_names (i : nat) : list vkind := match wt i with Some _ => if is_old c then [VY i] else [VZ i; VY i] | None => [] end.
Definition split_names : list vkind := flat_map (fun n => map (VU n) (cands n)) ids.
Definition class_names : list vkind := if is_old c then [] else map VW (seq 0 nt).
Definition known (ncut : nat) (kd : vkind) : Prop :=
  match kd with
  | VZ i => is_old c = false /\ i < n_rows /\ wt i <> None
  | VY i => i < n_rows /\ wt i <> None
  | VC i => i < ncut
  | VU n k => In n ids /\ In k (cands n)
  | VW t => is_old c = false /\ t < nt
  end.

Definition node_sc (n : nat) : scon := (Some 1, Some 1, map (fun k => (VU n k, 1)) (cands n))%Q.
Definition arm (goes : nat -> bool) (n : nat) (q : Q) : list (vkind * Q) := map (fun k => (VU n k, q)) (good goes n).
Definition branch_sc (kd : vkind) (goes : nat -> bool) : list scon :=
  let per_node := map (fun n => (None, Some 0, (kd, 1) :: arm goes n (-1))%Q) ids in
  let reach := (None, Some (inject_Z (Z.of_nat (su_depth u) - 1)), (kd, (-1)%Q) :: flat_map (fun n => arm goes n 1%Q) ids) in
  if is_sat c then per_node ++ [reach] else reach :: per_node.
Definition row_sc (i : nat) : list scon := match wt i with Some _ => branch_sc (VY i) (row_left i) | None => [] end.
Definition one_class_sc : scon := (Some (if is_sat c then 1 else 0), Some 1, map (fun t => (VW t, 1)) (seq 0 nt))%Q.
Definition class_sc (i : nat) : list scon :=
  match wt i with
  | Some _ => [(None, Some 0, [(VZ i, 1); (VY i, -1)]); (None, Some 0, [(VZ i, 1); (VW (nth i (su_y u) 0%nat), -1)])]%Q
  | None => []
  end.
Definition base_sc : list scon :=
  map node_sc ids ++ flat_map row_sc (seq 0 n_rows) ++
  (if is_old c then [] else one_class_sc :: flat_map class_sc (seq 0 n_rows)).
Definition cut_sc (iz : nat * list bool) : list scon := branch_sc (VC (fst iz)) (cut_left (snd iz)).
Definition cuts_sc (start : nat) (cuts : list (list bool)) : list scon := flat_map cut_sc (combine (seq start (length cuts)) cuts).

(** Objective coefficients for reported duals. *)
Definition cf (dl : tduals) (kd : vkind) : Q :=
  match kd with
  | VZ i => match wt i with Some w => inject_Z (Z.of_nat w) | None => 0 end
  | VY i => match c with
            | COld t => if (nth i (su_y u) 0 =? t)%nat then 1 - nth i (d_row dl) 0 else - nth i (d_row dl) 0
            | _ => - nth i (d_row dl) 0
            end
  | VC i => - nth i (d_cut dl) 0
  | VU n k => - choice_dual dl l (n, k)
  | VW _ => 0
  end%Q.

(** Duals with an entry for everything. *)
Record good_duals (ncut : nat) (dl : tduals) : Prop := {
  gd_leaf : l < length (d_leaf dl);
  gd_row : length (d_row dl) = n_rows;
  gd_cut : length (d_cut dl) = ncut;
  gd_ns : forall n k, In n ids -> In k (cands n) -> exists q, assoc key3_eqb (d_ns dl) (l, n, k) = Some q
}.

Record built (cuts : list (list bool)) (ncut : nat) (obj : vkind -> Q) (off : Q) (names : list vkind) (pr : pricing) : Prop := {
  bu_gen : pr_generated pr = true;
  bu_sym : sym names (base_sc ++ cuts_sc 0 cuts) (pr_lp pr);
  bu_names : forall kd, In kd names <-> known ncut kd;
  bu_z : pr_z pr = map (fun i => match wt i with Some _ => if is_old c then None else Some (at_ names (VZ i)) | None => None end) (seq 0 n_rows);
  bu_y : pr_y pr = map (fun i => match wt i with Some _ => Some (at_ names (VY i)) | None => None end) (seq 0 n_rows);
  bu_yc : pr_yc pr = map (fun i => at_ names (VC i)) (seq 0 ncut);
  bu_u : forall n k, In n ids -> In k (cands n) -> assoc key2_eqb (pr_u pr) (n, k) = Some (at_ names (VU n k));
  bu_w : pr_w pr = if is_old c then [] else map (fun t => at_ names (VW t)) (seq 0 nt);
  bu_start : pr_start pr = length cuts;
  bu_obj : objs c names obj obj (pr_lp pr, pr_orig pr);
  bu_off : lp_off (pr_lp pr) = off;
  bu_max : lp_max (pr_lp pr) = true
}.

(** * Facts about the tree *)

Lemma ids_nodup : NoDup ids.
Proof. apply (create_leaf_nodes l (su_depth u) Hl). Qed.
Lemma ids_lt n : In n ids -> n < length (su_nodes u).
Proof.
  intros H. pose proof V as (wf & _). destruct (wt_nodes _ _ _ _ wf) as [Hn _]. rewrite Hn. apply (create_leaf_nodes l (su_depth u) Hl). auto.
Qed.
Lemma cands_ok n : NoDup (cands n) /\ Forall (fun k => k < length (su_splits u)) (cands n).
Proof.
  unfold cands. pose proof V as (wf & _). destruct (nth_error (su_nodes u) n) as [nd|] eqn:E; [|split; constructor].
  apply (wt_cands _ _ _ _ wf). eapply nth_error_In; eauto.
Qed.
Lemma good_In goes n k : In k (good goes n) <-> In k (cands n) /\ goes k = memb n (l_left lf).
Proof. unfold good. rewrite filter_In, Bool.eqb_true_iff. reflexivity. Qed.
Lemma good_nodup goes n : NoDup (good goes n).
Proof. apply NoDup_filter, cands_ok. Qed.
Lemma arm_names goes n q : map fst (arm goes n q) = map (VU n) (good goes n).
Proof. unfold arm. rewrite map_map. reflexivity. Qed.
Lemma VU_nodup n ks : NoDup ks -> NoDup (map (VU n) ks).
Proof. intros H. induction H; cbn; constructor; auto. rewrite in_map_iff. intros (k & E & Hk). congruence. Qed.
Lemma grid_nodup (f : nat -> list nat) ns : NoDup ns -> (forall n, NoDup (f n)) -> NoDup (flat_map (fun n => map (VU n) (f n)) ns).
Proof.
  intros H Hf. induction H as [|n ns Hn H IH]; cbn; [constructor|]. apply TreePriceProofs.NoDup_app_intro; auto using VU_nodup.
  intros a H1 H2. apply in_map_iff in H1. destruct H1 as (k & <- & _). apply in_flat_map in H2. destruct H2 as (m & Hm & H2).
  apply in_map_iff in H2. destruct H2 as (k' & E & _). congruence.
Qed.
Lemma grid_In (f : nat -> list nat) ns kd : In kd (flat_map (fun n => map (VU n) (f n)) ns) <-> exists n k, kd = VU n k /\ In n ns /\ In k (f n).
Proof.
  rewrite in_flat_map. split.
  - intros (n & Hn & H). apply in_map_iff in H. destruct H as (k & <- & Hk). eauto.
  - intros (n & k & -> & Hn & Hk). exists n. split; auto. apply in_map. auto.
Qed.

(** * Fetching *)

Section Shared.
Variables (nodes : list node) (splits : list split).
Hypotheses (Hnodes : Forall2 same_node nodes (su_nodes u)) (Hsplits : Forall2 same_core splits (su_splits u)).

Lemma fetch n : In n ids -> exists nd, getitem nodes n = Ok nd /\ n_id nd = n /\ n_cands nd = cands n.
Proof.
  clear - V Hl Hnodes. intros H. apply ids_lt in H. destruct (nth_error (su_nodes u) n) as [nd|] eqn:E; [|apply nth_error_None in E; lia].
  destruct (Forall2_nth_r _ _ _ _ _ Hnodes E) as (nd' & E' & H1 & H2). exists nd'. split; [apply getitem_nth; auto|].
  pose proof V as (wf & _). destruct (wt_nodes _ _ _ _ wf) as [_ Hi]. rewrite H1, H2. split; [eapply Hi; eauto|]. unfold cands. rewrite E. auto.
Qed.
Lemma weigh_wt i : i < n_rows -> weigh (su_rows u) i = Ok (wt i).
Proof.
  clear - V. intros H. unfold n_rows in H. apply (weigh_ok n_rows (repeat 0 n_rows) (su_rows u)); [apply repeat_length| |auto]. pose proof V as (_ & _ & Hr).
  destruct (su_rows u) as [rs|]; auto. destruct Hr as [Hr _]. exact Hr.
Qed.
Lemma row_goes_ok i k : i < n_rows -> k < length (su_splits u) -> row_goes (su_X u) splits i k = Ok (row_left i k).
Proof.
  clear - V Hsplits. intros Hi Hk. unfold row_goes, row_left, goes_left, row_satisfies_split.
  destruct (nth_error (su_splits u) k) as [sp|] eqn:E; [|apply nth_error_None in E; lia].
  destruct (Forall2_nth_r _ _ _ _ _ Hsplits E) as (sp' & E' & _ & H1 & H2 & _). rewrite (getitem_nth _ _ _ E'). cbn [bind].
  destruct (nth_error (su_X u) i) as [x|] eqn:Ex; [|apply nth_error_None in Ex; unfold n_rows in *; lia]. rewrite (getitem_nth _ _ _ Ex). cbn [bind].
  rewrite (nth_error_nth _ _ _ Ex). pose proof V as (wf & _). pose proof (wt_fits _ _ _ _ wf) as Hf. rewrite Forall_forall in Hf.
  rewrite H1, (fits_getitem (su_splits u) x sp); [|apply Hf; eapply nth_error_In; eauto|eapply nth_error_In; eauto]. cbn [bind].
  unfold sample_left. rewrite H2. reflexivity.
Qed.

(** * Branch constraints *)

Lemma matching_ok names us goesR goes n nd : (forall k, In k (cands n) -> goesR k = Ok (goes k)) ->
  (forall k, In k (cands n) -> assoc key2_eqb us (n, k) = Some (at_ names (VU n k))) -> In n ids -> n_id nd = n -> n_cands nd = cands n ->
  matching lf goesR us nd = Ok (map (fun k => at_ names (VU n k)) (good goes n)).
Proof.
  clear - V Hl. intros Hg Hu Hn E1 E2. unfold matching, good. rewrite E1, E2. unfold ids in Hn.
  assert (G : forall b ks acc, incl ks (cands n) ->
    for_each ks (fun k acc => let* b' := goesR k in if Bool.eqb b' b then (let* v := lookup key2_eqb us (n, k) in Ok (acc ++ [v])) else Ok acc) acc
    = Ok (acc ++ map (fun k => at_ names (VU n k)) (filter (fun k => Bool.eqb (goes k) b) ks))).
  { intros b. induction ks as [|k ks IH]; intros acc Hi; cbn [for_each filter map]; [rewrite app_nil_r; reflexivity|].
    assert (Hk : In k (cands n)) by (apply Hi; simpl; auto). rewrite (Hg k Hk). cbn [bind].
    assert (Hks : incl ks (cands n)) by (intros a Ha; apply Hi; simpl; auto).
    destruct (Bool.eqb (goes k) b) eqn:Eb.
    - unfold lookup. rewrite (Hu k Hk). cbn [bind map]. rewrite IH by auto. rewrite <- app_assoc. reflexivity.
    - cbn [bind]. apply IH. auto. }
  destruct (memb n (l_left lf)) eqn:El.
  - etransitivity; [|apply (G true (cands n) []); intros a Ha; exact Ha]. apply for_each_ext. intros k a _. destruct (goesR k) as [[]|]; reflexivity.
  - destruct (memb n (l_right lf)) eqn:Er.
    + etransitivity; [|apply (G false (cands n) []); intros a Ha; exact Ha]. apply for_each_ext. intros k a _. destruct (goesR k) as [[]|]; reflexivity.
    + apply memb_false in El. apply memb_false in Er. apply in_app_or in Hn. tauto.
Qed.

Definition kept (m m' : lp) : Prop := lp_obj m' = lp_obj m /\ lp_off m' = lp_off m /\ lp_max m' = lp_max m.
Lemma kept_refl m : kept m m.
Proof. repeat split. Qed.
Lemma kept_trans m1 m2 m3 : kept m1 m2 -> kept m2 m3 -> kept m1 m3.
Proof. intros (A1 & A2 & A3) (B1 & B2 & B3). repeat split; congruence. Qed.
Lemma add_con_kept lb ub ts m : kept m (add_con c lb ub ts m).
Proof. repeat split. Qed.
Definition us_ok (names : list vkind) (us : list (key2 * nat)) : Prop :=
  forall n k, In n ids -> In k (cands n) -> In (VU n k) names /\ assoc key2_eqb us (n, k) = Some (at_ names (VU n k)).

Lemma arms_conc names goes ns q : map (fun v => (v, q)) (concat (map (fun n => map (fun k => at_ names (VU n k)) (good goes n)) ns)) =
  conc names (flat_map (fun n => arm goes n q) ns).
Proof.
  clear. unfold conc. induction ns as [|n ns IH]; [reflexivity|]. cbn [map concat flat_map]. rewrite !map_app, IH. f_equal.
  unfold arm. rewrite !map_map. reflexivity.
Qed.
Lemma arm_conc names goes n q : map (fun v => (v, q)) (map (fun k => at_ names (VU n k)) (good goes n)) = conc names (arm goes n q).
Proof. clear. unfold conc, arm. rewrite !map_map. reflexivity. Qed.
Lemma arms_fst goes ns q : map fst (flat_map (fun n => arm goes n q) ns) = flat_map (fun n => map (VU n) (good goes n)) ns.
Proof. clear. induction ns as [|n ns IH]; [reflexivity|]. cbn [flat_map]. rewrite map_app, IH, arm_names. reflexivity. Qed.

Lemma branch_ok names scons m us goesR goes kd : sym names scons m -> In kd names -> (forall n k, kd <> VU n k) -> us_ok names us ->
  (forall k, k < length (su_splits u) -> goesR k = Ok (goes k)) ->
  exists m', branch_cons c (su_depth u) lf nodes goesR us (at_ names kd) m = Ok m' /\ sym names (scons ++ branch_sc kd goes) m' /\ kept m m'.
Proof.
  clear - V Hl Hnodes. intros S Hk Hne Hu Hg. unfold branch_cons.
  assert (Hin : forall n, In n ids -> incl (map (VU n) (good goes n)) names).
  { intros n Hn kd' H. apply in_map_iff in H. destruct H as (k & <- & Hk'). apply good_In in Hk'. apply Hu; tauto. }
  rewrite (map_res_total _ (fun n => map (fun k => at_ names (VU n k)) (good goes n))).
  2:{ intros n Hn. destruct (fetch n Hn) as (nd & E & E1 & E2). rewrite E. cbn [bind]. apply matching_ok; auto.
      - intros k Hkc. apply Hg. pose proof (proj2 (cands_ok n)) as HF. rewrite Forall_forall in HF. auto.
      - intros k Hkc. apply Hu; auto. }
  fold ids. cbn [bind].
  assert (Hreach : forall scons m, sym names scons m -> sym names (scons ++ [(None, Some (inject_Z (Z.of_nat (su_depth u) - 1)), (kd, (-1)%Q) :: flat_map (fun n => arm goes n 1%Q) ids)])
    (add_con c None (Some (inject_Z (Z.of_nat (su_depth u) - 1))) ((at_ names kd, (-1)%Q) :: map (fun u0 => (u0, 1%Q)) (concat (map (fun n => map (fun k => at_ names (VU n k)) (good goes n)) ids))) m)).
  { intros sc0 m0 S0. rewrite arms_conc. apply (sym_con c names sc0 m0 _ _ ((kd, (-1)%Q) :: _) S0).
    - cbn [map fst]. intros a [<-|Ha]; auto. rewrite arms_fst in Ha. apply grid_In in Ha. destruct Ha as (n & k & -> & Hn & Hk').
      apply (Hin n Hn). apply in_map. auto.
    - cbn [map fst]. rewrite arms_fst. constructor.
      + rewrite grid_In. intros (n & k & E & _). exact (Hne n k E).
      + apply grid_nodup; [apply ids_nodup|intros; apply good_nodup]. }
  assert (Hper : forall ns, incl ns ids -> forall scons m, sym names scons m ->
    let m' := fold_left (fun m g => add_con c None (Some 0%Q) ((at_ names kd, 1%Q) :: map (fun u0 => (u0, (-1)%Q)) g) m) (map (fun n => map (fun k => at_ names (VU n k)) (good goes n)) ns) m in
    sym names (scons ++ map (fun n => (None, Some 0, (kd, 1) :: arm goes n (-1))%Q) ns) m' /\ kept m m').
  { induction ns as [|n ns IH]; intros Hi sc0 m0 S0; cbn [map fold_left]; cbv zeta; [rewrite app_nil_r; split; auto; apply kept_refl|].
    assert (Hn : In n ids) by (apply Hi; simpl; auto). assert (Hns : incl ns ids) by (intros a Ha; apply Hi; simpl; auto).
    assert (S1 : sym names (sc0 ++ [(None, Some 0, (kd, 1) :: arm goes n (-1))%Q])
      (add_con c None (Some 0%Q) ((at_ names kd, 1%Q) :: map (fun u0 => (u0, (-1)%Q)) (map (fun k => at_ names (VU n k)) (good goes n))) m0)).
    { rewrite arm_conc. apply (sym_con c names sc0 m0 _ _ ((kd, 1%Q) :: _) S0).
      - cbn [map fst]. rewrite arm_names. intros a [<-|Ha]; auto. apply (Hin n Hn). auto.
      - cbn [map fst]. rewrite arm_names. constructor; [|apply VU_nodup, good_nodup]. rewrite in_map_iff. intros (k & E & _). exact (Hne n k (eq_sym E)). }
    destruct (IH Hns _ _ S1) as [S2 K2]. rewrite <- app_assoc in S2. cbn [app] in S2. split; [exact S2|].
    eapply kept_trans; [apply add_con_kept|exact K2]. }
  eexists. split; [reflexivity|]. unfold branch_sc. destruct (is_sat c) eqn:Es.
  - destruct (Hper ids (fun a Ha => Ha) scons m S) as [S1 K1]. cbv zeta in *. split.
    + rewrite app_assoc. apply Hreach. exact S1.
    + eapply kept_trans; [exact K1|apply add_con_kept].
  - destruct (Hper ids (fun a Ha => Ha) _ _ (Hreach scons m S)) as [S1 K1]. cbv zeta in *. split.
    + rewrite <- app_assoc in S1. exact S1.
    + eapply kept_trans; [apply add_con_kept|exact K1].
Qed.

(** * create_submip *)

Section Create.
Variables (dl : tduals) (ncut : nat).
Hypothesis G : good_duals ncut dl.

Definition bstate (names : list vkind) (mo : objective) : Prop := sym names [] (fst mo) /\ objs c names (cf dl) (cf dl) mo.
Lemma bstate_add names m o kd q v m1 : bstate names (m, o) -> ~ In kd names -> cf dl kd = q -> bool_var m = (v, m1) ->
  v = length names /\ bstate (names ++ [kd]) (put c v q (m1, o)).
Proof.
  clear. intros [S O] Hk Hq E. cbn [fst] in S. destruct (sym_var names [] m kd S Hk) as [E1 S1]. rewrite E in *. cbn [fst snd] in *. split; auto.
  split; [apply put_sym; exact S1|]. rewrite E1. replace m1 with (snd (bool_var m)) by (rewrite E; reflexivity).
  apply objs_add; auto. exact (sy_nodup _ _ _ S1).
Qed.
Lemma nth_getitem (qs : list Q) i : i < length qs -> getitem qs i = Ok (nth i qs 0%Q).
Proof. clear. intros H. apply getitem_nth. apply nth_error_nth'. auto. Qed.
Lemma pre_seq n pre i post : seq 0 n = pre ++ i :: post -> pre = seq 0 i /\ i < n.
Proof.
  clear. intros H. pose proof (f_equal (fun l => nth_error l (length pre)) H) as E. cbn in E. rewrite nth_error_app2, Nat.sub_diag in E by lia. cbn in E.
  apply nth_error_seq_Some in E. destruct E as [E1 E2]. cbn in E1. subst i. split; auto.
  pose proof (f_equal (firstn (length pre)) H) as F. rewrite firstn_app, Nat.sub_diag, firstn_all in F. cbn in F. rewrite app_nil_r in F.
  assert (Hf : forall k, k < n -> firstn k (seq 0 n) = seq 0 k).
  { intros k Hk. replace n with (k + (n - k)) by lia. rewrite seq_app, firstn_app, seq_length, Nat.sub_diag. cbn [firstn].
    rewrite app_nil_r. rewrite <- (seq_length k 0) at 1. apply firstn_all. }
  rewrite Hf in F by auto. symmetry. exact F.
Qed.

Definition zs_of (names : list vkind) (n : nat) : list (option nat) :=
  map (fun i => match wt i with Some _ => if is_old c then None else Some (at_ names (VZ i)) | None => None end) (seq 0 n).
Definition ys_of (names : list vkind) (n : nat) : list (option nat) :=
  map (fun i => match wt i with Some _ => Some (at_ names (VY i)) | None => None end) (seq 0 n).
Lemma rows_In n kd : In kd (flat_map row_names (seq 0 n)) <->
  match kd with VZ i => is_old c = false /\ i < n /\ wt i <> None | VY i => i < n /\ wt i <> None | _ => False end.
Proof.
  clear. rewrite in_flat_map. split.
  - intros (i & Hi & H). apply in_seq in Hi. unfold row_names in H. destruct (wt i) eqn:E; [|destruct H].
    destruct (is_old c) eqn:Eo; cbn in H; [destruct H as [<-|[]]|destruct H as [<-|[<-|[]]]]; repeat split; auto; try lia; congruence.
  - intros H. destruct kd as [i|i| | |]; try (exfalso; exact H).
    + destruct H as (H1 & H2 & H3). exists i. split; [apply in_seq; lia|]. unfold row_names. destruct (wt i); [|congruence]. rewrite H1. simpl; auto.
    + destruct H as (H2 & H3). exists i. split; [apply in_seq; lia|]. unfold row_names. destruct (wt i); [|congruence]. destruct (is_old c); simpl; auto.
Qed.
Lemma rows_of_app names more n : (forall kd, In kd (flat_map row_names (seq 0 n)) -> In kd names) ->
  zs_of (names ++ more) n = zs_of names n /\ ys_of (names ++ more) n = ys_of names n.
Proof.
  clear. intros H. unfold zs_of, ys_of. split; apply map_ext_in; intros i Hi; apply in_seq in Hi; destruct (wt i) as [w|] eqn:E; auto.
  - destruct (is_old c) eqn:Eo; auto. rewrite at_app; auto. apply H, rows_In. repeat split; auto; try lia; congruence.
  - rewrite at_app; auto. apply H, rows_In. split; [lia|congruence].
Qed.

Lemma row_vars_ok : exists mo zs ys, for_each (seq 0 n_rows) (row_vars c (su_y u) (su_rows u) (d_row dl)) ((empty_lp, fun _ => 0%Q), [], []) = Ok (mo, zs, ys) /\
  let names := flat_map row_names (seq 0 n_rows) in bstate names mo /\ zs = zs_of names n_rows /\ ys = ys_of names n_rows /\ lp_off (fst mo) = 0%Q.
Proof.
  clear - V D G.
  set (P := fun (pre : list nat) (st : objective * list (option nat) * list (option nat)) =>
     let '(mo, zs, ys) := st in
     let names := flat_map row_names (seq 0 (length pre)) in bstate names mo /\ zs = zs_of names (length pre) /\ ys = ys_of names (length pre) /\ lp_off (fst mo) = 0%Q).
  assert (H : exists st, for_each (seq 0 n_rows) (row_vars c (su_y u) (su_rows u) (d_row dl)) ((empty_lp, fun _ => 0%Q), [], []) = Ok st /\ P (seq 0 n_rows) st).
  { apply for_each_total.
    - intros pre i post [[[m o] zs] ys] E HP. destruct (pre_seq _ _ _ _ E) as [-> Hi]. clear E post. unfold P in *. rewrite app_length, !seq_length in *.
      cbn [length] in *. replace (i + 1) with (S i) in * by lia. cbv zeta in HP. destruct HP as (B & Ez & Ey & Eo).
      unfold row_vars. rewrite weigh_wt by auto. cbn [bind].
      assert (Hlast : flat_map row_names (seq 0 (S i)) = flat_map row_names (seq 0 i) ++ row_names i).
      { rewrite seq_S, flat_map_app. cbn [flat_map Nat.add]. rewrite app_nil_r. reflexivity. }
      rewrite Hlast. set (N := flat_map row_names (seq 0 i)) in *.
      assert (HN : forall kd, In kd (flat_map row_names (seq 0 i)) -> In kd N) by auto.
      assert (Hzy : forall more, zs_of (N ++ more) (S i) = zs ++ [match wt i with Some _ => if is_old c then None else Some (at_ (N ++ more) (VZ i)) | None => None end] /\
                                 ys_of (N ++ more) (S i) = ys ++ [match wt i with Some _ => Some (at_ (N ++ more) (VY i)) | None => None end]).
      { intros more. destruct (rows_of_app N more i HN) as [E1 E2]. unfold zs_of, ys_of. rewrite !seq_S, !map_app. cbn [map Nat.add].
        change (map (fun i0 => match wt i0 with Some _ => if is_old c then None else Some (at_ (N ++ more) (VZ i0)) | None => None end) (seq 0 i)) with (zs_of (N ++ more) i).
        change (map (fun i0 => match wt i0 with Some _ => Some (at_ (N ++ more) (VY i0)) | None => None end) (seq 0 i)) with (ys_of (N ++ more) i).
        rewrite E1, E2, Ez, Ey. auto. }
      assert (HZ : ~ In (VZ i) N) by (intros H; apply rows_In in H; lia).
      assert (HY : ~ In (VY i) N) by (intros H; apply rows_In in H; lia).
      destruct (Hzy (row_names i)) as [Hz Hy]. cbv zeta. rewrite Hz, Hy. clear Hzy. unfold row_names in *. destruct (wt i) as [w|] eqn:Ew.
      2:{ rewrite app_nil_r. eexists. split; [reflexivity|]. cbn. auto. }
      assert (Hrow : getitem (d_row dl) i = Ok (nth i (d_row dl) 0%Q)) by (apply nth_getitem; rewrite (gd_row _ _ G); auto).
      assert (Hlab : getitem (su_y u) i = Ok (nth i (su_y u) 0)) by (apply getitem_nth, nth_error_nth'; destruct D as [-> _]; auto).
      rewrite Hrow, Hlab. cbn [bind].
      destruct (is_old c) eqn:Eold.
      + destruct c as [| |t] eqn:Ec; try discriminate. destruct (bool_var m) as [v m1] eqn:Ev.
        destruct (bstate_add N m o (VY i) (if (nth i (su_y u) 0 =? t)%nat then 1 - nth i (d_row dl) 0 else - nth i (d_row dl) 0)%Q v m1 B HY) as [E1 B1].
        { cbn [cf]. rewrite Ec. reflexivity. }
        { exact Ev. }
        rewrite Ec in B1. eexists. split; [reflexivity|]. rewrite at_new by auto. rewrite <- E1. split; [exact B1|].
        repeat split. destruct (put_frame (COld t) v (if (nth i (su_y u) 0 =? t)%nat then 1 - nth i (d_row dl) 0 else - nth i (d_row dl) 0)%Q (m1, o)) as [-> _].
        cbn [fst]. unfold bool_var, new_var in Ev. injection Ev as _ <-. exact Eo.
      + destruct (bool_var m) as [z m1] eqn:Ez1.
        destruct (bstate_add N m o (VZ i) (inject_Z (Z.of_nat w)) z m1 B HZ) as [E1 B1].
        { cbn [cf]. rewrite Ew. reflexivity. }
        { exact Ez1. }
        pose proof (put_frame c z (inject_Z (Z.of_nat w)) (m1, o)) as F1. destruct (put c z (inject_Z (Z.of_nat w)) (m1, o)) as [m2 o2] eqn:Ep. cbn [fst] in F1.
        destruct (bool_var m2) as [v m3] eqn:Ev.
        destruct (bstate_add (N ++ [VZ i]) m2 o2 (VY i) (- nth i (d_row dl) 0)%Q v m3 B1) as [E2 B2].
        { rewrite in_app_iff. intros [H|[H|[]]]; [auto|discriminate]. }
        { cbn [cf]. destruct c; try reflexivity. discriminate. }
        { exact Ev. }
        exists (put c v (- nth i (d_row dl) 0)%Q (m3, o2), zs ++ [Some z], ys ++ [Some v]).
        split; [destruct c; try discriminate; cbn [bind]; rewrite ?Ev; reflexivity|].
        replace (N ++ [VZ i; VY i]) with ((N ++ [VZ i]) ++ [VY i]) by (rewrite <- app_assoc; reflexivity).
        rewrite (at_app (N ++ [VZ i]) [VY i] (VZ i)) by (apply in_or_app; simpl; auto). rewrite at_new by auto.
        rewrite at_new by (rewrite in_app_iff; intros [H|[H|[]]]; [auto|discriminate]). rewrite <- E1, <- E2. split; [exact B2|]. repeat split.
        destruct (put_frame c v (- nth i (d_row dl) 0)%Q (m3, o2)) as [-> _]. cbn [fst]. unfold bool_var, new_var in Ev, Ez1.
        injection Ev as _ <-. injection Ez1 as _ <-. cbn [lp_off]. destruct F1 as [-> _]. exact Eo.
    - unfold P. cbn [length seq flat_map]. cbv zeta. split; [split|split; [reflexivity|split; reflexivity]].
      + constructor; constructor.
      + constructor; intros; try reflexivity; destruct v; discriminate. }
  destruct H as ([[mo zs] ys] & E & HP). exists mo, zs, ys. split; auto. unfold P in HP. rewrite seq_length in HP. exact HP.
Qed.

Lemma cut_vars_ok N mo : bstate N mo -> (forall i, ~ In (VC i) N) ->
  exists mo' ycs, for_each (seq 0 (length (d_cut dl))) (cut_var c (d_cut dl)) (mo, []) = Ok (mo', ycs) /\
    let names := N ++ map VC (seq 0 ncut) in bstate names mo' /\ ycs = map (fun i => at_ names (VC i)) (seq 0 ncut).
Proof.
  clear - G. intros B HN. rewrite (gd_cut _ _ G).
  set (P := fun (pre : list nat) (st : objective * list nat) =>
     let '(mo, ycs) := st in let names := N ++ map VC (seq 0 (length pre)) in bstate names mo /\ ycs = map (fun i => at_ names (VC i)) (seq 0 (length pre))).
  assert (H : exists st, for_each (seq 0 ncut) (cut_var c (d_cut dl)) (mo, []) = Ok st /\ P (seq 0 ncut) st).
  { apply for_each_total.
    - intros pre i post [[m o] ycs] E HP. destruct (pre_seq _ _ _ _ E) as [-> Hi]. unfold P in *. rewrite app_length, !seq_length in *.
      cbn [length] in *. replace (i + 1) with (S i) in * by lia. cbv zeta in *. destruct HP as [B1 Ey]. unfold cut_var.
      destruct (bool_var m) as [v m1] eqn:Ev. rewrite nth_getitem by (rewrite (gd_cut _ _ G); auto). cbn [bind].
      assert (Hnew : ~ In (VC i) (N ++ map VC (seq 0 i))).
      { rewrite in_app_iff, in_map_iff. intros [H|(j & Ej & Hj)]; [exact (HN i H)|]. injection Ej as ->. apply in_seq in Hj. lia. }
      destruct (bstate_add _ m o (VC i) (- nth i (d_cut dl) 0)%Q v m1 B1 Hnew eq_refl Ev) as [Ev' B2].
      eexists. split; [reflexivity|]. rewrite seq_S, !map_app. cbn [map Nat.add]. rewrite app_assoc. split; [exact B2|].
      rewrite at_new by auto. rewrite <- Ev', Ey. f_equal. apply map_ext_in. intros j Hj. symmetry. apply (at_app (N ++ map VC (seq 0 i)) [VC i]). apply in_or_app. right. apply in_map. auto.
    - unfold P. cbn [length seq map]. cbv zeta. rewrite app_nil_r. auto. }
  destruct H as ([mo' ycs] & E & HP). exists mo', ycs. split; auto. unfold P in HP. rewrite seq_length in HP. exact HP.
Qed.

Lemma split_vars_ok N mo : bstate N mo -> (forall n k, ~ In (VU n k) N) ->
  exists mo' us, for_each ids (split_vars c (l_id lf) nodes (d_ns dl)) (mo, []) = Ok (mo', us) /\
    bstate (N ++ split_names) mo' /\ us_ok (N ++ split_names) us.
Proof.
  clear - V Hl G Hnodes. intros B HN. assert (Hid : l_id lf = l) by (apply create_leaf_id; auto). rewrite Hid.
  set (inv := fun names (st : objective * list (key2 * nat)) =>
     bstate names (fst st) /\ forall n k, In (VU n k) names -> assoc key2_eqb (snd st) (n, k) = Some (at_ names (VU n k))).
  assert (H : exists st, for_each ids (split_vars c l nodes (d_ns dl)) (mo, []) = Ok st /\ inv (N ++ flat_map (fun n => map (VU n) (cands n)) ids) st).
  { apply (for_each_total ids (split_vars c l nodes (d_ns dl)) (fun pre st => inv (N ++ flat_map (fun n => map (VU n) (cands n)) pre) st)).
    - intros pre n post st E HP.
      assert (Hn : In n ids) by (rewrite E; apply in_or_app; simpl; auto).
      assert (Hpre : ~ In n pre).
      { pose proof ids_nodup as Hd. rewrite E in Hd. apply NoDup_remove_2 in Hd. intros H. apply Hd. apply in_or_app. auto. }
      unfold split_vars. destruct (fetch n Hn) as (nd & -> & E1 & E2). cbn [bind]. rewrite E1, E2.
      set (N1 := N ++ flat_map (fun n => map (VU n) (cands n)) pre) in *.
      destruct (for_each_total (cands n) (fun k st => let '((m, o), us) := st in let '(v, m1) := bool_var m in
          let* q := lookup key3_eqb (d_ns dl) (l, n, k) in Ok (put c v (- q)%Q (m1, o), assoc_set key2_eqb us (n, k) v))
          (fun pre' st => inv (N1 ++ map (VU n) pre') st)) with (s := st) as (st' & Est & HP').
      + intros pre' k post' [[m o] us] E' [B1 Hus]. cbn [fst snd] in *. destruct (bool_var m) as [v m1] eqn:Ev.
        assert (Hk : In k (cands n)) by (rewrite E'; apply in_or_app; simpl; auto).
        assert (Hpre' : ~ In k pre').
        { pose proof (proj1 (cands_ok n)) as Hd. rewrite E' in Hd. apply NoDup_remove_2 in Hd. intros H. apply Hd. apply in_or_app. auto. }
        assert (Hnew : ~ In (VU n k) (N1 ++ map (VU n) pre')).
        { unfold N1. rewrite !in_app_iff, grid_In, in_map_iff. intros [[H|(n' & k' & Ek & H1 & H2)]|(k' & Ek & H)].
          - exact (HN n k H).
          - injection Ek as <- <-. auto.
          - injection Ek as ->. auto. }
        destruct (gd_ns _ _ G n k Hn Hk) as [q Eq]. unfold lookup. rewrite Eq. cbn [bind].
        destruct (bstate_add _ m o (VU n k) (- q)%Q v m1 B1 Hnew) as [Ev' B2].
        { cbn [cf]. unfold choice_dual. cbn [fst snd]. rewrite Eq. reflexivity. }
        { exact Ev. }
        eexists. split; [reflexivity|]. rewrite map_app. cbn [map]. rewrite app_assoc. split; [exact B2|]. cbn [fst snd].
        intros n' k' Hin. rewrite assoc2_set. destruct (key2_eqb (n, k) (n', k')) eqn:Ek.
        * apply key2_iff in Ek. injection Ek as <- <-. rewrite at_new by auto. congruence.
        * apply in_app_or in Hin. destruct Hin as [Hin|[Hin|[]]].
          -- rewrite at_app by auto. auto.
          -- injection Hin as <- <-. assert (key2_eqb (n, k) (n, k) = true) by (apply key2_iff; auto). congruence.
      + cbn [map]. rewrite app_nil_r. exact HP.
      + exists st'. split; [exact Est|]. rewrite flat_map_app. cbn [flat_map]. rewrite app_nil_r, app_assoc. exact HP'.
    - cbn [flat_map]. rewrite app_nil_r. split; [exact B|]. intros n k Hin. exfalso. exact (HN n k Hin). }
  destruct H as ([mo' us] & E & B' & Hus). exists mo', us. split; auto. split; [exact B'|].
  intros n k Hn Hk. assert (Hin : In (VU n k) (N ++ split_names)) by (apply in_or_app; right; apply grid_In; eauto).
  split; [exact Hin|]. apply (Hus n k Hin).
Qed.

(** Constraint loops. *)
Lemma node_cons_ok names m us : sym names [] m -> us_ok names us ->
  exists m', for_each ids (node_con c nodes us) m = Ok m' /\ sym names (map node_sc ids) m' /\ kept m m'.
Proof.
  clear - V Hl Hnodes. intros S Hu.
  apply (for_each_total ids (node_con c nodes us) (fun pre m' => sym names (map node_sc pre) m' /\ kept m m')); [|split; [exact S|apply kept_refl]].
  intros pre n post m' E [S' K']. assert (Hn : In n ids) by (rewrite E; apply in_or_app; simpl; auto).
  unfold node_con. destruct (fetch n Hn) as (nd & -> & E1 & E2). cbn [bind]. rewrite E1, E2.
  rewrite (map_res_total _ (fun k => (at_ names (VU n k), 1%Q))).
  2:{ intros k Hk. unfold lookup. destruct (Hu n k Hn Hk) as [_ ->]. reflexivity. }
  cbn [bind]. eexists. split; [reflexivity|]. split; [|eapply kept_trans; [exact K'|apply add_con_kept]].
  rewrite map_app. cbn [map]. replace (map (fun k => (at_ names (VU n k), 1%Q)) (cands n)) with (conc names (map (fun k => (VU n k, 1%Q)) (cands n))).
  2:{ unfold conc. rewrite map_map. reflexivity. }
  apply sym_con; auto; rewrite map_map; cbn [fst].
  - intros a Ha. apply in_map_iff in Ha. destruct Ha as (k & <- & Hk). apply (Hu n k Hn Hk).
  - apply VU_nodup, cands_ok.
Qed.
Lemma row_cons_ok names scons m us ys : sym names scons m -> us_ok names us -> ys = ys_of names n_rows ->
  (forall i, i < n_rows -> wt i <> None -> In (VY i) names) ->
  exists m', for_each (seq 0 n_rows) (row_con c (su_depth u) lf nodes splits (su_X u) (su_rows u) ys us) m = Ok m' /\
    sym names (scons ++ flat_map row_sc (seq 0 n_rows)) m' /\ kept m m'.
Proof.
  clear - V Hl Hnodes Hsplits. intros S Hu -> Hy.
  apply (for_each_total (seq 0 n_rows) (row_con c (su_depth u) lf nodes splits (su_X u) (su_rows u) (ys_of names n_rows) us)
    (fun pre m' => sym names (scons ++ flat_map row_sc pre) m' /\ kept m m')); [|split; [cbn; rewrite app_nil_r; exact S|apply kept_refl]].
  intros pre i post m' E [S' K']. destruct (pre_seq _ _ _ _ E) as [_ Hi].
  rewrite flat_map_app. cbn [flat_map]. rewrite app_nil_r. unfold row_con, row_sc at 2. rewrite weigh_wt by auto. cbn [bind].
  destruct (wt i) as [w|] eqn:Ew; [|exists m'; rewrite app_nil_r; auto].
  assert (Hget : getitem (ys_of names n_rows) i = Ok (Some (at_ names (VY i)))).
  { apply getitem_nth. unfold ys_of. rewrite nth_error_map, seq_nth_error by auto. cbn [option_map Nat.add]. rewrite Ew. reflexivity. }
  rewrite Hget. cbn [bind].
  destruct (branch_ok names _ m' us (row_goes (su_X u) splits i) (row_left i) (VY i) S' ) as (m'' & E2 & S2 & K2); auto.
  - apply Hy; auto. congruence.
  - intros n k; discriminate.
  - intros k Hk. apply row_goes_ok; auto.
  - exists m''. split; [exact E2|]. rewrite app_assoc. split; [exact S2|eapply kept_trans; eauto].
Qed.
Lemma class_vars_ok names scons m o cl : is_old c = false -> sym names scons m -> objs c names cl cl (m, o) -> (forall t, ~ In (VW t) names) ->
  (forall t, cl (VW t) = 0%Q) ->
  exists m' ws, class_vars c nt m = (m', ws) /\ let names' := names ++ map VW (seq 0 nt) in
    ws = map (fun t => at_ names' (VW t)) (seq 0 nt) /\ sym names' (scons ++ [one_class_sc]) m' /\ objs c names' cl cl (m', o) /\
    lp_off m' = lp_off m /\ lp_max m' = lp_max m.
Proof.
  clear. intros Hold S O HN Hc. unfold class_vars.
  assert (H : forall k, exists m1 ws, fold_left (fun st (_ : nat) => let '(v, m1) := bool_var (fst st) in (m1, snd st ++ [v])) (seq 0 k) (m, []) = (m1, ws) /\
    let names' := names ++ map VW (seq 0 k) in ws = map (fun t => at_ names' (VW t)) (seq 0 k) /\ sym names' scons m1 /\ objs c names' cl cl (m1, o) /\
    lp_off m1 = lp_off m /\ lp_max m1 = lp_max m).
  { induction k as [|k IH].
    - exists m, []. cbn [seq map fold_left]. rewrite app_nil_r. split; [reflexivity|]. cbv zeta. split; [reflexivity|]. split; [exact S|]. split; [exact O|auto].
    - destruct IH as (m1 & ws & E & Ew & S1 & O1 & F1 & F2). rewrite seq_S, fold_left_app, E. cbn [fold_left fst snd Nat.add].
      assert (Hnew : ~ In (VW k) (names ++ map VW (seq 0 k))).
      { rewrite in_app_iff, in_map_iff. intros [H|(j & Ej & Hj)]; [exact (HN k H)|]. injection Ej as ->. apply in_seq in Hj. lia. }
      destruct (sym_var _ _ _ (VW k) S1 Hnew) as [Ev S2]. pose proof (objs_new c _ cl cl m1 o (VW k) O1 (Hc k) (Hc k)) as O2.
      destruct (bool_var m1) as [v m2] eqn:Eb. cbn [fst snd] in *. exists m2, (ws ++ [v]). split; auto. cbv zeta.
      assert (EN : names ++ map VW (seq 0 k ++ [k]) = (names ++ map VW (seq 0 k)) ++ [VW k]) by (rewrite map_app, app_assoc; reflexivity).
      rewrite EN. split; [|split; [exact S2|split; [exact O2|]]].
      + rewrite map_app. cbn [map]. rewrite at_new by auto. rewrite Ew, Ev. f_equal. apply map_ext_in. intros j Hj. symmetry. apply (at_app (names ++ map VW (seq 0 k)) [VW k]).
        apply in_or_app. right. apply in_map. auto.
      + unfold bool_var, new_var in Eb. injection Eb as _ <-. auto. }
  destruct (H nt) as (m1 & ws & E & Ew & S1 & O1 & F1 & F2). rewrite E. exists (add_con c (Some (if is_sat c then 1 else 0)%Q) (Some 1%Q) (map (fun w => (w, 1%Q)) ws) m1), ws.
  split; auto. cbv zeta. split; [exact Ew|]. split; [|split; [|split; assumption]].
  - subst ws. rewrite map_map. replace (map (fun x => (at_ (names ++ map VW (seq 0 nt)) (VW x), 1%Q)) (seq 0 nt)) with
      (conc (names ++ map VW (seq 0 nt)) (map (fun t => (VW t, 1%Q)) (seq 0 nt))) by (unfold conc; rewrite map_map; reflexivity).
    apply sym_con; auto; rewrite map_map; cbn [fst].
    + intros a Ha. apply in_or_app. right. exact Ha.
    + apply FinFun.Injective_map_NoDup; [intros a b; congruence|apply seq_NoDup].
  - destruct O1 as [P1 P2 P3 P4]. constructor; auto.
Qed.
Lemma class_cons_ok names scons m zs ys ws : is_old c = false -> sym names scons m -> zs = zs_of names n_rows -> ys = ys_of names n_rows ->
  ws = map (fun t => at_ names (VW t)) (seq 0 nt) ->
  (forall i, i < n_rows -> wt i <> None -> In (VY i) names /\ In (VZ i) names) -> (forall t, t < nt -> In (VW t) names) ->
  exists m', for_each (seq 0 n_rows) (class_con c (su_y u) (su_rows u) zs ys ws) m = Ok m' /\
    sym names (scons ++ flat_map class_sc (seq 0 n_rows)) m' /\ kept m m'.
Proof.
  clear - V D Hnt. intros Hold S -> -> -> Hyz Hw.
  apply (for_each_total (seq 0 n_rows) (class_con c (su_y u) (su_rows u) (zs_of names n_rows) (ys_of names n_rows) (map (fun t => at_ names (VW t)) (seq 0 nt)))
    (fun pre m' => sym names (scons ++ flat_map class_sc pre) m' /\ kept m m')); [|split; [cbn; rewrite app_nil_r; exact S|apply kept_refl]].
  intros pre i post m' E [S' K']. destruct (pre_seq _ _ _ _ E) as [_ Hi].
  rewrite flat_map_app. cbn [flat_map]. rewrite app_nil_r. unfold class_con, class_sc at 2. rewrite weigh_wt by auto. cbn [bind].
  destruct (wt i) as [w|] eqn:Ew; [|exists m'; rewrite app_nil_r; auto].
  assert (Hz : getitem (zs_of names n_rows) i = Ok (Some (at_ names (VZ i)))).
  { apply getitem_nth. unfold zs_of. rewrite nth_error_map, seq_nth_error by auto. cbn [option_map Nat.add]. rewrite Ew, Hold. reflexivity. }
  assert (Hy : getitem (ys_of names n_rows) i = Ok (Some (at_ names (VY i)))).
  { apply getitem_nth. unfold ys_of. rewrite nth_error_map, seq_nth_error by auto. cbn [option_map Nat.add]. rewrite Ew. reflexivity. }
  assert (Hlen : i < length (su_y u)) by (destruct D as [-> _]; exact Hi).
  assert (Hlab : getitem (su_y u) i = Ok (nth i (su_y u) 0)) by (apply getitem_nth, nth_error_nth'; exact Hlen).
  assert (Ht : nth i (su_y u) 0 < nt) by (specialize (Hnt Hold); rewrite Forall_forall in Hnt; apply Hnt, nth_In; exact Hlen).
  assert (Hwv : getitem (map (fun t => at_ names (VW t)) (seq 0 nt)) (nth i (su_y u) 0) = Ok (at_ names (VW (nth i (su_y u) 0)))).
  { apply getitem_nth. rewrite nth_error_map, seq_nth_error by auto. reflexivity. }
  rewrite Hz, Hy. cbn [bind]. rewrite Hlab. cbn [bind]. rewrite Hwv. cbn [bind].
  destruct (Hyz i Hi) as [HY HZ]; [congruence|]. eexists. split; [reflexivity|]. split.
  - change [((None, Some 0, [(VZ i, 1); (VY i, -1)]) : scon); (None, Some 0, [(VZ i, 1); (VW (nth i (su_y u) 0%nat), -1)])]%Q with
      ([((None, Some 0, [(VZ i, 1); (VY i, -1)]) : scon)] ++ [(None, Some 0, [(VZ i, 1); (VW (nth i (su_y u) 0%nat), -1)])])%Q.
    rewrite !app_assoc. apply (sym_con c names _ _ _ _ [(VZ i, 1); (VW (nth i (su_y u) 0%nat), -1)]%Q).
    + apply (sym_con c names _ _ _ _ [(VZ i, 1); (VY i, -1)]%Q); [exact S'|idtac|idtac].
      * intros a [<-|[<-|[]]]; auto.
      * constructor; [intros [H|[]]; discriminate|constructor; [intros []|constructor]].
    + cbn [map fst]. intros a [<-|[<-|[]]]; [exact HZ|exact (Hw _ Ht)].
    + constructor; [intros [H|[]]; discriminate|constructor; [intros []|constructor]].
  - eapply kept_trans; [exact K'|]. eapply kept_trans; apply add_con_kept.
Qed.

Lemma us_more names more us : us_ok names us -> us_ok (names ++ more) us.
Proof.
  clear. intros H n k Hn Hk. destruct (H n k Hn Hk) as [H1 H2]. split; [apply in_or_app; auto|]. rewrite at_app by auto. exact H2.
Qed.
Lemma objs_kept names cl co m m' o : objs c names cl co (m, o) -> kept m m' -> objs c names cl co (m', o).
Proof. clear. intros [H1 H2 H3 H4] (E & _). cbn [fst snd] in *. constructor; cbn [fst snd]; rewrite ?E; auto. Qed.

Lemma create_ok (targets : list Z) q : length targets = nt ->
  exists pr names, create_submip c lf nodes splits targets (su_depth u) (su_rows u) (su_X u) (su_y u) q dl pricing_init = Ok pr /\
    built [] ncut (cf dl) (- q)%Q names pr.
Proof.
  clear - V D Hl Hnt G Hnodes Hsplits. intros Htg. unfold create_submip. cbn [pr_generated pricing_init negb]. unfold assert. cbn [bind].
  change (length (su_X u)) with n_rows. fold ids. cbn [pr_lp pr_orig pricing_init].
  destruct row_vars_ok as (mo1 & zs & ys & E1 & B1 & Ez & Ey & _). rewrite E1. cbn [bind].
  set (N1 := flat_map row_names (seq 0 n_rows)) in *.
  assert (H1 : forall kd, In kd N1 -> match kd with VZ i => is_old c = false /\ i < n_rows /\ wt i <> None | VY i => i < n_rows /\ wt i <> None | _ => False end)
    by (intros kd; apply rows_In).
  destruct (cut_vars_ok N1 mo1 B1 (fun i H => H1 _ H)) as (mo2 & ycs & E2 & B2 & Eyc). rewrite E2. cbn [bind].
  set (N2 := N1 ++ map VC (seq 0 ncut)) in *.
  assert (H2 : forall n k, ~ In (VU n k) N2).
  { intros n k H. apply in_app_or in H. destruct H as [H|H]; [exact (H1 _ H)|]. apply in_map_iff in H. destruct H as (j & Ej & _). discriminate. }
  destruct (split_vars_ok N2 mo2 B2 H2) as ([m3 o3] & us & E3 & [S3 O3] & Hus). rewrite E3. cbn [bind].
  set (N3 := N2 ++ split_names) in *. cbn [fst] in S3.
  assert (S4 : sym N3 [] (set_dir true (set_offset (- q)%Q m3))) by (destruct S3; constructor; auto).
  assert (O4 : objs c N3 (cf dl) (cf dl) (set_dir true (set_offset (- q)%Q m3), o3)) by (destruct O3; constructor; auto).
  destruct (node_cons_ok N3 _ us S4 Hus) as (m5 & E5 & S5 & K5). rewrite E5. cbn [bind].
  assert (Hrow3 : forall kd, In kd N1 -> In kd N3) by (intros kd H; unfold N3, N2; rewrite !in_app_iff; auto).
  assert (Ey3 : ys = ys_of N3 n_rows).
  { rewrite Ey. unfold N3, N2. rewrite <- app_assoc. symmetry. apply (rows_of_app N1 _ n_rows). auto. }
  assert (Ez3 : zs = zs_of N3 n_rows).
  { rewrite Ez. unfold N3, N2. rewrite <- app_assoc. symmetry. apply (rows_of_app N1 _ n_rows). auto. }
  assert (Hy3 : forall i, i < n_rows -> wt i <> None -> In (VY i) N3) by (intros i Hi Hw; apply Hrow3, rows_In; auto).
  destruct (row_cons_ok N3 _ m5 us ys S5 Hus Ey3 Hy3) as (m6 & E6 & S6 & K6). rewrite E6. cbn [bind].
  pose proof (kept_trans _ _ _ K5 K6) as K. pose proof (objs_kept _ _ _ _ _ _ O4 K) as O6.
  assert (HN3 : forall kd, In kd N3 <-> match kd with VW _ => False | _ => known ncut kd end).
  { intros kd. unfold N3, N2. rewrite !in_app_iff. unfold N1 at 1. rewrite rows_In. unfold split_names. rewrite grid_In, in_map_iff. unfold known.
    destruct kd as [i|i|i|n k|t]; split.
    all: try (intros [[H|(j & Ej & H)]|(n' & k' & Ek & H & H')]; try discriminate; try (exfalso; exact H); auto).
    all: try (intros H; left; left; exact H).
    - injection Ej as ->. apply in_seq in H. lia.
    - intros H. left. right. exists i. split; auto. apply in_seq. lia.
    - injection Ek as -> ->. auto.
    - intros [Hn Hk]. right. eauto. }
  assert (Eyc3 : ycs = map (fun i => at_ N3 (VC i)) (seq 0 ncut)).
  { rewrite Eyc. apply map_ext_in. intros j Hj. symmetry. apply (at_app N2). unfold N2. apply in_or_app. right. apply in_map. auto. }
  destruct (Bool.bool_dec (is_old c) true) as [Eold|Eold]; [|apply Bool.not_true_is_false in Eold].
  - exists (mkPr true m6 zs ys ycs us [] 0 o3), N3. split; [destruct c; try discriminate; reflexivity|].
    constructor; cbn [pr_generated pr_lp pr_z pr_y pr_yc pr_u pr_w pr_start pr_orig length].
    + reflexivity.
    + unfold base_sc, cuts_sc. rewrite Eold. cbn [combine seq length flat_map]. rewrite !app_nil_r. exact S6.
    + intros kd. rewrite HN3. destruct kd; try reflexivity. cbn [known]. rewrite Eold. split; [intros []|intros [H _]; discriminate].
    + rewrite Ez3. reflexivity.
    + exact Ey3.
    + exact Eyc3.
    + intros n k Hn Hk. apply (Hus n k Hn Hk).
    + rewrite Eold. reflexivity.
    + reflexivity.
    + exact O6.
    + destruct K as (_ & -> & _). reflexivity.
    + destruct K as (_ & _ & ->). reflexivity.
  - destruct (class_vars_ok N3 _ m6 o3 (cf dl) Eold S6 O6) as (m7 & ws & E7 & Ew & S7 & O7 & F7 & F7').
    { intros t H. apply HN3 in H. exact H. }
    { reflexivity. }
    rewrite Htg. set (N4 := N3 ++ map VW (seq 0 nt)) in *.
    assert (Hin4 : forall kd, In kd N3 -> In kd N4) by (intros; apply in_or_app; auto).
    assert (Hrow4 : forall kd, In kd N1 -> In kd N4) by auto.
    assert (Ez4 : zs = zs_of N4 n_rows).
    { rewrite Ez3. symmetry. apply (rows_of_app N3 _ n_rows). intros kd H. apply Hrow3. exact H. }
    assert (Ey4 : ys = ys_of N4 n_rows).
    { rewrite Ey3. symmetry. apply (rows_of_app N3 _ n_rows). intros kd H. apply Hrow3. exact H. }
    destruct (class_cons_ok N4 _ m7 zs ys ws Eold S7 Ez4 Ey4 Ew) as (m8 & E8 & S8 & K8).
    { intros i Hi Hw. split; apply Hrow4, rows_In; auto. }
    { intros t Ht. apply in_or_app. right. apply in_map, in_seq. lia. }
    exists (mkPr true m8 zs ys ycs us ws 0 o3), N4. split; [destruct c; try discriminate; rewrite E7; cbn [bind]; rewrite E8; reflexivity|].
    constructor; cbn [pr_generated pr_lp pr_z pr_y pr_yc pr_u pr_w pr_start pr_orig length].
    + reflexivity.
    + unfold base_sc, cuts_sc. rewrite Eold. cbn [combine seq length flat_map]. rewrite !app_nil_r. rewrite <- app_assoc in S8. cbn [app] in S8.
      rewrite <- app_assoc in S8. exact S8.
    + intros kd. unfold N4. rewrite in_app_iff, HN3, in_map_iff. destruct kd as [i|i|i|n k|t]; cbn [known]; split.
      all: try (intros [H|(t' & Et & H)]; [exact H|discriminate]).
      all: try (intros H; left; exact H).
      * intros [[]|(t' & Et & H)]. injection Et as ->. apply in_seq in H. split; auto. lia.
      * intros [_ H]. right. exists t. split; auto. apply in_seq. lia.
    + exact Ez4.
    + exact Ey4.
    + rewrite Eyc3. apply map_ext_in. intros j Hj. symmetry. apply (at_app N3). apply HN3. cbn. apply in_seq in Hj. lia.
    + intros n k Hn Hk. apply (us_more N3 _ us Hus n k Hn Hk).
    + rewrite Eold. exact Ew.
    + reflexivity.
    + eapply objs_kept; eauto.
    + destruct K8 as (_ & -> & _). rewrite F7. destruct K as (_ & -> & _). reflexivity.
    + destruct K8 as (_ & _ & ->). rewrite F7'. destruct K as (_ & _ & ->). reflexivity.
Qed.

(** * update_objective *)

(** The coefficients of the names [done] are those for the duals. *)
Definition ui (names : list vkind) (scons : list scon) (done : vkind -> Prop) (mo : objective) : Prop :=
  sym names scons (fst mo) /\
  exists cl co, objs c names cl co mo /\ (forall kd, done kd -> cl kd = cf dl kd /\ co kd = cf dl kd) /\
    (forall t, cl (VW t) = 0%Q /\ co (VW t) = 0%Q).
Lemma ui_weaken names scons (d d' : vkind -> Prop) mo : (forall kd, d' kd -> d kd) -> ui names scons d mo -> ui names scons d' mo.
Proof. clear. intros H (S & cl & co & O & Hd & Hw). split; auto. exists cl, co. auto. Qed.
Lemma ui_put names scons d mo kd q : ui names scons d mo -> In kd names -> cf dl kd = q -> (forall t, kd <> VW t) ->
  ui names scons (fun k => k = kd \/ d k) (put c (at_ names kd) q mo).
Proof.
  clear. intros (S & cl & co & O & Hd & Hw) Hin Hq Hne. split; [apply put_sym; auto|]. exists (vset cl kd q), (vset co kd q).
  split; [apply objs_put; auto; exact (sy_nodup _ _ _ S)|]. unfold vset. split.
  - intros k Hk. destruct (vkind_eq_dec k kd) as [->|]; [auto|]. destruct Hk; [contradiction|auto].
  - intros t. destruct (vkind_eq_dec (VW t) kd) as [E|]; [exfalso; exact (Hne t (eq_sym E))|auto].
Qed.
Lemma ui_new names scons d m o kd q v m1 : ui names scons d (m, o) -> ~ In kd names -> cf dl kd = q -> (forall t, kd <> VW t) -> bool_var m = (v, m1) ->
  v = length names /\ ui (names ++ [kd]) scons (fun k => k = kd \/ d k) (put c v q (m1, o)).
Proof.
  clear. intros (S & cl & co & O & Hd & Hw) Hin Hq Hne Ev. destruct (sym_var names scons m kd S Hin) as [E1 S1]. rewrite Ev in *. cbn [fst snd] in *.
  split; auto. rewrite E1, <- (at_new names kd Hin).
  assert (O0 : objs c names (vset cl kd 0%Q) (vset co kd 0%Q) (m, o)).
  { eapply objs_ext; [exact O|]. intros k Hk. unfold vset. destruct (vkind_eq_dec k kd); [subst; contradiction|auto]. }
  apply (objs_new c names _ _ m o kd) in O0; [|unfold vset; destruct (vkind_eq_dec kd kd); congruence..]. rewrite Ev in O0. cbn [snd] in O0.
  split; [apply put_sym; exact S1|].
  exists (vset (vset cl kd 0%Q) kd q), (vset (vset co kd 0%Q) kd q). split; [apply objs_put; auto; [exact (sy_nodup _ _ _ S1)|apply in_or_app; simpl; auto]|].
  unfold vset. split.
  - intros k Hk. destruct (vkind_eq_dec k kd) as [->|]; [auto|]. destruct Hk; [contradiction|auto].
  - intros t. destruct (vkind_eq_dec (VW t) kd) as [E|]; [exfalso; exact (Hne t (eq_sym E))|auto].
Qed.

Lemma update_rows_ok names scons mo zs ys : ui names scons (fun _ => False) mo -> zs = zs_of names n_rows -> ys = ys_of names n_rows ->
  (forall kd, In kd (flat_map row_names (seq 0 n_rows)) -> In kd names) ->
  exists mo', for_each (seq 0 n_rows) (update_row_coeffs c (su_rows u) (su_y u) (d_row dl) zs ys) mo = Ok mo' /\
    ui names scons (fun kd => In kd (flat_map row_names (seq 0 n_rows))) mo'.
Proof.
  clear - V D G. intros U -> -> Hr.
  apply (for_each_total (seq 0 n_rows) (update_row_coeffs c (su_rows u) (su_y u) (d_row dl) (zs_of names n_rows) (ys_of names n_rows))
    (fun pre mo' => ui names scons (fun kd => In kd (flat_map row_names pre)) mo')).
  2:{ eapply ui_weaken; [|exact U]. intros kd []. }
  intros pre i post mo' E U'. destruct (pre_seq _ _ _ _ E) as [_ Hi]. unfold update_row_coeffs. rewrite weigh_wt by auto. cbn [bind].
  assert (Hlast : forall kd, In kd (flat_map row_names (pre ++ [i])) -> In kd (match wt i with Some _ => if is_old c then [VY i] else [VZ i; VY i] | None => [] end) \/ In kd (flat_map row_names pre)).
  { intros kd. rewrite flat_map_app, in_app_iff. cbn [flat_map]. rewrite app_nil_r. fold (row_names i). tauto. }
  destruct (wt i) as [w|] eqn:Ew.
  2:{ exists mo'. split; auto. eapply ui_weaken; [|exact U']. intros kd H. apply Hlast in H. destruct H as [[]|H]; auto. }
  assert (Hy : getitem (ys_of names n_rows) i = Ok (Some (at_ names (VY i)))).
  { apply getitem_nth. unfold ys_of. rewrite nth_error_map, seq_nth_error by auto. cbn [option_map Nat.add]. rewrite Ew. reflexivity. }
  assert (HY : In (VY i) names) by (apply Hr, rows_In; split; [auto|congruence]).
  rewrite Hy, (nth_getitem (d_row dl) i) by (rewrite (gd_row _ _ G); auto). cbn [bind].
  assert (Hlab : getitem (su_y u) i = Ok (nth i (su_y u) 0)) by (apply getitem_nth, nth_error_nth'; destruct D as [-> _]; exact Hi).
  rewrite Hlab. cbn [bind].
  destruct (Bool.bool_dec (is_old c) true) as [Eold|Eold]; [|apply Bool.not_true_is_false in Eold].
  - exists (put c (at_ names (VY i)) (cf dl (VY i)) mo'). split.
    + cbn [cf]. destruct c; try discriminate. reflexivity.
    + eapply ui_weaken; [|apply ui_put; [exact U'|exact HY|reflexivity|intros t; discriminate]]. intros kd H. apply Hlast in H. rewrite Eold in H.
      destruct H as [[<-|[]]|H]; auto.
  - assert (HZ : In (VZ i) names) by (apply Hr, rows_In; repeat split; [auto|auto|congruence]).
    assert (Hz : getitem (zs_of names n_rows) i = Ok (Some (at_ names (VZ i)))).
    { apply getitem_nth. unfold zs_of. rewrite nth_error_map, seq_nth_error by auto. cbn [option_map Nat.add]. rewrite Ew, Eold. reflexivity. }
    rewrite Hz. cbn [bind].
    exists (put c (at_ names (VY i)) (cf dl (VY i)) (put c (at_ names (VZ i)) (cf dl (VZ i)) mo')). split.
    + cbn [cf]. rewrite Ew. destruct c; try discriminate; reflexivity.
    + eapply ui_weaken; [|apply ui_put; [apply ui_put; [exact U'|exact HZ|reflexivity|intros t; discriminate]|exact HY|reflexivity|intros t; discriminate]].
      intros kd H. apply Hlast in H. rewrite Eold in H. destruct H as [[<-|[<-|[]]]|H]; auto.
Qed.

Definition with_cuts (names : list vkind) (nc0 k : nat) : list vkind := names ++ map VC (seq nc0 (k - nc0)).
Lemma update_cuts_ok nc0 names scons d mo ycs : ui names scons d mo -> nc0 <= ncut -> ycs = map (fun i => at_ names (VC i)) (seq 0 nc0) ->
  (forall i, In (VC i) names <-> i < nc0) ->
  exists mo' ycs', for_each (seq 0 (length (d_cut dl))) (update_cut_coeff c nc0 (d_cut dl)) (mo, ycs) = Ok (mo', ycs') /\
    let names' := with_cuts names nc0 ncut in
    ui names' scons (fun kd => d kd \/ In kd (map VC (seq 0 ncut))) mo' /\ ycs' = map (fun i => at_ names' (VC i)) (seq 0 ncut).
Proof.
  clear - G. intros U Hle Ey HN. rewrite (gd_cut _ _ G).
  set (P := fun (pre : list nat) (st : objective * list nat) =>
    let '(mo, ycs) := st in let names' := with_cuts names nc0 (length pre) in
    ui names' scons (fun kd => d kd \/ In kd (map VC pre)) mo /\ ycs = map (fun i => at_ names' (VC i)) (seq 0 (Nat.max nc0 (length pre)))).
  assert (H : exists st, for_each (seq 0 ncut) (update_cut_coeff c nc0 (d_cut dl)) (mo, ycs) = Ok st /\ P (seq 0 ncut) st).
  { apply for_each_total.
    - intros pre i post [[m o] ycs0] E HP. destruct (pre_seq _ _ _ _ E) as [-> Hi]. clear E. unfold P in *. rewrite app_length, seq_length in *.
      cbn [length] in *. replace (i + 1) with (S i) in * by lia. cbv zeta in *. destruct HP as [U1 Ey1]. unfold update_cut_coeff.
      rewrite (nth_getitem (d_cut dl) i) by (rewrite (gd_cut _ _ G); auto).
      assert (Hdone : forall kd, d kd \/ In kd (map VC (seq 0 i ++ [i])) -> kd = VC i \/ (d kd \/ In kd (map VC (seq 0 i)))).
      { intros kd. rewrite map_app, in_app_iff. cbn [map]. intros [H|[H|[H|[]]]]; auto. }
      destruct (Nat.leb_spec nc0 i) as [Hge|Hlt].
      + destruct (bool_var m) as [v m1] eqn:Ev. cbn [bind].
        assert (Hnew : ~ In (VC i) (with_cuts names nc0 i)).
        { unfold with_cuts. rewrite in_app_iff, in_map_iff, HN. intros [H|(j & Ej & Hj)]; [lia|]. injection Ej as ->. apply in_seq in Hj. lia. }
        destruct (ui_new _ _ _ m o (VC i) (- nth i (d_cut dl) 0)%Q v m1 U1 Hnew eq_refl ltac:(intros t; discriminate) Ev) as [Ev' U2].
        assert (EN : with_cuts names nc0 (S i) = with_cuts names nc0 i ++ [VC i]).
        { unfold with_cuts. replace (S i - nc0) with (S (i - nc0)) by lia. rewrite seq_S, map_app, app_assoc. cbn [map]. replace (nc0 + (i - nc0)) with i by lia. reflexivity. }
        eexists. split; [reflexivity|]. rewrite EN. split; [eapply ui_weaken; [|exact U2]; exact Hdone|].
        rewrite !Nat.max_r in * by lia. rewrite seq_S, map_app. cbn [map Nat.add]. rewrite at_new by auto. rewrite <- Ev', Ey1. f_equal.
        apply map_ext_in. intros j Hj. apply in_seq in Hj. symmetry. apply at_app. unfold with_cuts. rewrite in_app_iff, in_map_iff, HN.
        destruct (Nat.lt_ge_cases j nc0); [auto|]. right. exists j. split; auto. apply in_seq. lia.
      + assert (E0 : forall k, k <= nc0 -> with_cuts names nc0 k = names).
        { intros k Hk. unfold with_cuts. replace (k - nc0) with 0 by lia. cbn. apply app_nil_r. }
        rewrite (E0 i) in * by lia. rewrite (E0 (S i)) by lia. rewrite !Nat.max_l in * by lia.
        assert (Hg : getitem ycs0 i = Ok (at_ names (VC i))).
        { apply getitem_nth. rewrite Ey1, nth_error_map, seq_nth_error by auto. reflexivity. }
        rewrite Hg. cbn [bind]. eexists. split; [reflexivity|]. split; [|exact Ey1].
        eapply ui_weaken; [exact Hdone|]. apply ui_put; auto; [apply HN; auto|intros t; discriminate].
    - unfold P. cbn [length]. cbv zeta. unfold with_cuts. cbn [Nat.sub seq map]. rewrite app_nil_r, Nat.max_l by lia. split; auto.
      eapply ui_weaken; [|exact U]. intros kd [H|[]]; auto. }
  destruct H as ([mo' ycs'] & E & HP). exists mo', ycs'. split; auto. unfold P in HP. rewrite seq_length, Nat.max_r in HP by auto. exact HP.
Qed.

Lemma update_splits_ok names scons d mo us : ui names scons d mo -> us_ok names us ->
  exists mo', for_each ids (update_split_coeffs c lf nodes us (d_ns dl)) mo = Ok mo' /\ ui names scons (fun kd => d kd \/ In kd split_names) mo'.
Proof.
  clear - V Hl G Hnodes. intros U Hu.
  apply (for_each_total ids (update_split_coeffs c lf nodes us (d_ns dl))
    (fun pre mo' => ui names scons (fun kd => d kd \/ In kd (flat_map (fun n => map (VU n) (cands n)) pre)) mo')).
  2:{ eapply ui_weaken; [|exact U]. intros kd [H|[]]; auto. }
  intros pre n post mo' E U'. assert (Hn : In n ids) by (rewrite E; apply in_or_app; simpl; auto).
  unfold update_split_coeffs. assert (Hid : l_id lf = l) by (apply create_leaf_id; auto). rewrite Hid.
  destruct (fetch n Hn) as (nd & -> & E1 & E2). cbn [bind]. rewrite E1, E2.
  destruct (for_each_total (cands n) (fun k mo => let* v := lookup key2_eqb us (n, k) in let* q := lookup key3_eqb (d_ns dl) (l, n, k) in Ok (put c v (- q)%Q mo))
    (fun pre' mo => ui names scons (fun kd => (d kd \/ In kd (flat_map (fun n => map (VU n) (cands n)) pre)) \/ In kd (map (VU n) pre')) mo)) with (s := mo') as (mo'' & E3 & U3).
  - intros pre' k post' mo1 E' U1. assert (Hk : In k (cands n)) by (rewrite E'; apply in_or_app; simpl; auto).
    destruct (Hu n k Hn Hk) as [Hin Ha]. unfold lookup. rewrite Ha. cbn [bind]. destruct (gd_ns _ _ G n k Hn Hk) as [q Eq]. rewrite Eq. cbn [bind].
    eexists. split; [reflexivity|]. eapply ui_weaken; [|apply ui_put; [exact U1|exact Hin| |intros t; discriminate]].
    + cbv beta. intros kd. rewrite map_app, in_app_iff. cbn [map]. intros [H|[H|[H|[]]]]; auto.
    + cbn [cf]. unfold choice_dual. cbn [fst snd]. rewrite Eq. reflexivity.
  - eapply ui_weaken; [|exact U']. cbv beta. intros kd [H|[]]; auto.
  - exists mo''. split; [exact E3|]. eapply ui_weaken; [|exact U3]. cbv beta. intros kd. rewrite flat_map_app, in_app_iff. cbn [flat_map]. rewrite app_nil_r. tauto.
Qed.

Lemma update_ok cuts nc0 obj0 off0 names0 pr0 q : built cuts nc0 obj0 off0 names0 pr0 -> (forall t, obj0 (VW t) = 0%Q) -> nc0 <= ncut ->
  exists pr names, update_objective c lf nodes (su_rows u) (su_X u) (su_y u) q dl pr0 = Ok pr /\ built cuts ncut (cf dl) (- q)%Q names pr.
Proof.
  clear - V D Hl G Hnodes. intros Hb Hw Hle. destruct Hb as [Hgen S Hn Hz Hy Hyc Hu Hws Hst O Hoff Hmax]. unfold update_objective. rewrite Hgen.
  assert (Hass : (if is_sat c then assert true else Ok tt) = Ok tt) by (destruct (is_sat c); reflexivity). rewrite Hass. cbn [bind].
  change (length (su_X u)) with n_rows. fold ids.
  set (m0 := if is_sat c then mkLp (lp_vars (pr_lp pr0)) (fun _ => 0%Q) (lp_off (pr_lp pr0)) (lp_max (pr_lp pr0)) (lp_cons (pr_lp pr0)) else pr_lp pr0).
  assert (U0 : ui names0 (base_sc ++ cuts_sc 0 cuts) (fun _ => False) (m0, pr_orig pr0)).
  { unfold m0. split; [cbn [fst]; destruct (is_sat c); destruct S; constructor; auto|]. destruct (is_sat c) eqn:Es.
    - exists (fun _ => 0%Q), obj0. split; [|split; [intros kd []|auto]]. destruct O as [O1 O2 O3 O4]. constructor; cbn [fst snd lp_obj] in *; auto.
      intros v kd _. rewrite scl0. reflexivity.
    - exists obj0, obj0. split; [exact O|split; [intros kd []|auto]]. }
  assert (Hrin : forall kd, In kd (flat_map row_names (seq 0 n_rows)) -> In kd names0).
  { intros kd H. apply Hn. apply rows_In in H. destruct kd; auto; destruct H. }
  destruct (update_rows_ok _ _ _ (pr_z pr0) (pr_y pr0) U0 Hz Hy Hrin) as (mo1 & E1 & U1). rewrite E1. cbn [bind].
  assert (Hnc : length (pr_yc pr0) = nc0) by (rewrite Hyc, map_length, seq_length; auto). rewrite Hnc.
  destruct (update_cuts_ok nc0 _ _ _ _ (pr_yc pr0) U1 Hle Hyc) as (mo2 & ycs & E2 & U2 & Ey2).
  { intros i. rewrite Hn. cbn [known]. reflexivity. }
  rewrite E2. cbn [bind]. set (N := with_cuts names0 nc0 ncut) in *.
  assert (Hus : us_ok N (pr_u pr0)).
  { apply us_more. intros n k H1 H2. split; [apply Hn; split; auto|apply Hu; auto]. }
  destruct (update_splits_ok _ _ _ _ _ U2 Hus) as ([m3 o3] & E3 & (S3 & cl & co & O3 & Hd & Hw3)). rewrite E3. cbn [bind].
  eexists _, N. split; [reflexivity|]. cbn [fst] in S3.
  assert (HN : forall kd, In kd N <-> known ncut kd).
  { intros kd. unfold N, with_cuts. rewrite in_app_iff, Hn, in_map_iff. split.
    - intros [H|(j & <- & H)]; [destruct kd; cbn [known] in *; auto; lia|]. apply in_seq in H. cbn [known]. lia.
    - intros H. destruct kd as [i|i|i|n k|t]; try (left; exact H). cbn [known] in *. destruct (Nat.lt_ge_cases i nc0); [auto|].
      right. exists i. split; auto. apply in_seq. lia. }
  constructor; cbn [pr_generated pr_lp pr_z pr_y pr_yc pr_u pr_w pr_start pr_orig].
  - reflexivity.
  - destruct S3; constructor; auto.
  - exact HN.
  - rewrite Hz. symmetry. apply (rows_of_app names0 _ n_rows Hrin).
  - rewrite Hy. symmetry. apply (rows_of_app names0 _ n_rows Hrin).
  - exact Ey2.
  - intros n k H1 H2. apply (Hus n k H1 H2).
  - rewrite Hws. destruct (is_old c) eqn:Eo; auto. apply map_ext_in. intros t Ht. symmetry. apply at_app, Hn. cbn [known]. apply in_seq in Ht. split; auto. lia.
  - exact Hst.
  - assert (O4 : objs c N (cf dl) (cf dl) (m3, o3)).
    { eapply objs_ext; [exact O3|]. intros kd Hin. destruct kd as [i|i|i|n k|t]; [| | | |apply Hw3]; apply Hd; apply HN in Hin; cbn [known] in Hin.
      - left. left. apply rows_In. exact Hin.
      - left. left. apply rows_In. exact Hin.
      - left. right. apply in_map, in_seq. lia.
      - right. apply grid_In. destruct Hin. eauto. }
    destruct O4; constructor; auto.
  - reflexivity.
  - reflexivity.
Qed.
End Create.

(** * add_cut_rows *)

Lemma cuts_sc_app start cuts new : cuts_sc start (cuts ++ new) = cuts_sc start cuts ++ cuts_sc (start + length cuts) new.
Proof.
  clear. unfold cuts_sc. revert start. induction cuts as [|z cuts IH]; intros start; cbn [app length seq combine flat_map].
  - rewrite Nat.add_0_r. reflexivity.
  - rewrite IH, app_assoc. replace (start + S (length cuts)) with (S start + length cuts) by lia. reflexivity.
Qed.
Lemma add_cuts_ok cuts new ncut obj off names pr : built cuts ncut obj off names pr -> length cuts + length new <= ncut ->
  Forall (fun z => length z = length (su_splits u)) new ->
  exists pr', add_cut_rows c lf nodes (su_depth u) new pr = Ok pr' /\ built (cuts ++ new) ncut obj off names pr'.
Proof.
  clear - V Hl Hnodes. intros Hb Hlen Hz. pose proof Hb as [Hgen S Hn Hzz Hy Hyc Hu Hws Hst O Hoff Hmax]. unfold add_cut_rows. rewrite Hgen. cbn [assert bind].
  rewrite Hst.
  destruct (for_each_total (combine (seq (length cuts) (length new)) new)
    (fun iz m => let* v := getitem (pr_yc pr) (fst iz) in branch_cons c (su_depth u) lf nodes (getitem (snd iz)) (pr_u pr) v m)
    (fun pre m => sym names ((base_sc ++ cuts_sc 0 cuts) ++ flat_map cut_sc pre) m /\ kept (pr_lp pr) m)) with (s := pr_lp pr) as (m & E & S' & K).
  - intros pre [i z] post m E [S1 K1]. cbn [fst snd].
    assert (Hin : In (i, z) (combine (seq (length cuts) (length new)) new)) by (rewrite E; apply in_or_app; simpl; auto).
    pose proof (in_combine_l _ _ _ _ Hin) as Hi. pose proof (in_combine_r _ _ _ _ Hin) as Hzin. apply in_seq in Hi.
    assert (Hg : getitem (pr_yc pr) i = Ok (at_ names (VC i))).
    { apply getitem_nth. rewrite Hyc, nth_error_map, seq_nth_error by lia. reflexivity. }
    rewrite Hg. cbn [bind]. destruct (branch_ok names _ m (pr_u pr) (getitem z) (cut_left z) (VC i) S1) as (m' & E2 & S2 & K2).
    + apply Hn. cbn [known]. lia.
    + intros n k; discriminate.
    + intros n k H1 H2. split; [apply Hn; split; auto|auto].
    + intros k Hk. apply getitem_nth. apply nth_error_nth'. rewrite Forall_forall in Hz. rewrite (Hz z Hzin). exact Hk.
    + exists m'. split; [exact E2|]. split; [|eapply kept_trans; eauto]. rewrite flat_map_app. cbn [flat_map]. rewrite app_nil_r, app_assoc. exact S2.
  - cbn [flat_map]. rewrite app_nil_r. split; [exact S|apply kept_refl].
  - rewrite E. cbn [bind]. eexists. split; [reflexivity|]. destruct K as (K1 & K2 & K3).
    constructor; cbn [pr_generated pr_lp pr_z pr_y pr_yc pr_u pr_w pr_start pr_orig]; auto.
    + rewrite cuts_sc_app, app_assoc. exact S'.
    + rewrite app_length. reflexivity.
    + eapply objs_kept; [exact O|repeat split; auto].
    + congruence.
    + congruence.
Qed.

(** * The subproblem's life *)

(** New, or with the constraints for the cuts received so far. *)
Definition alive (cuts : list (list bool)) (pr : pricing) : Prop :=
  (cuts = [] /\ pr = pricing_init) \/
  (exists dl ncut off names, built cuts ncut (cf dl) off names pr /\ ncut = length cuts).

Section Refresh.
Variables (targets : list Z) (dl : tduals) (ncut : nat).
Hypotheses (Htg : length targets = nt) (G : good_duals ncut dl).

Lemma refresh_ok cuts pr : alive cuts pr -> length cuts <= ncut ->
  exists pr' names, refresh c lf nodes splits targets (su_depth u) (su_rows u) (su_X u) (su_y u) dl pr = Ok pr' /\
    built cuts ncut (cf dl) (- nth l (d_leaf dl) 0)%Q names pr'.
Proof.
  clear - V D Hl Hnt G Hnodes Hsplits Htg. intros A Hle. unfold refresh. assert (Hid : l_id lf = l) by (apply create_leaf_id; auto). rewrite Hid.
  rewrite (nth_getitem _ _ (gd_leaf _ _ G)). cbn [bind]. destruct A as [[-> ->]|(dl0 & nc0 & off & names & Hb & Hnc)].
  - cbn [pr_generated pricing_init]. destruct (create_ok dl ncut G targets (nth l (d_leaf dl) 0%Q) Htg) as (pr' & names & E & H). eauto.
  - rewrite (bu_gen _ _ _ _ _ _ Hb). destruct (update_ok dl ncut G cuts nc0 _ off names pr (nth l (d_leaf dl) 0%Q) Hb) as (pr' & names' & E & H).
    + reflexivity.
    + lia.
    + eauto.
Qed.

Lemma update_subproblem_ok old pr : alive old pr -> ncut = length (old ++ d_new_cuts dl) ->
  Forall (fun z => length z = length (su_splits u)) (d_new_cuts dl) ->
  exists pr', update_subproblem c lf nodes splits targets (su_depth u) (su_rows u) (su_X u) (su_y u) dl pr = Ok pr' /\
    alive (old ++ d_new_cuts dl) pr' /\
    (is_sat c = false -> exists names, built (old ++ d_new_cuts dl) ncut (cf dl) (- nth l (d_leaf dl) 0)%Q names pr').
Proof.
  intros A Hnc Hz. unfold update_subproblem. destruct (is_sat c && (length (d_new_cuts dl) =? 0)) eqn:Es.
  - apply Bool.andb_true_iff in Es. destruct Es as [Es E0]. apply Nat.eqb_eq in E0. destruct (d_new_cuts dl); [|discriminate]. rewrite app_nil_r in *.
    exists pr. split; auto. split; auto. congruence.
  - rewrite app_length in Hnc. destruct (refresh_ok old pr A) as (pr1 & names & E1 & H1); [lia|]. rewrite E1. cbn [bind].
    destruct (Nat.ltb_spec 0 (length (d_new_cuts dl))) as [Hpos|H0].
    + destruct (add_cuts_ok old (d_new_cuts dl) ncut _ _ names pr1 H1) as (pr2 & E2 & H2); [lia|auto|]. exists pr2. split; auto.
      split; [right; exists dl, ncut; do 2 eexists; split; [exact H2|rewrite app_length; auto]|]. intros _. eauto.
    + destruct (d_new_cuts dl); [|cbn in H0; lia]. rewrite app_nil_r in *. cbn [length] in Hnc. exists pr1. split; auto.
      split; [right; exists dl, ncut; do 2 eexists; split; [exact H1|lia]|]. intros _. eauto.
Qed.
End Refresh.
End Shared.
End Model.

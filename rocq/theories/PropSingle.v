(** C72: the conversion of samples to float32 inside scikit-learn's trees. *)
From Coq Require Import Qabs Qpower.
From Verif Require Import Base Lp LpProofs FitModel TreeModel TreePricingModel TreeFitModel ExpModel ExpMainModel SpecTree SpecTreeRun SpecTreeTrain SpecTreeResult SpecExp SpecPrep SpecSingle SpecMain
  TreePathProofs ExpCheck SingleProofs PropTree PropTreeTrain PropTreeResult PropPrep PropMain.
Open Scope nat_scope.

(** A CART tree treats every training sample as if it were not converted. *)
Theorem C72_training_samples : forall single X c d m, cart_for d m c -> Forall (fun x => length x = m) X -> converts single X -> clean_cart single X c ->
  forall x, In x X -> (forall k i, descends c (map single x) k i <-> descends c x k i) /\ forall label t, single_class single c label x t <-> cart_class c label x t.
Proof. intros single X c d m HC HX Hs Hc x Hx. split; intros; [eapply same_descent|eapply same_class]; eauto. Qed.
Print Assumptions C72_training_samples.

Theorem C72_right_rows : forall single X y c d m label rs, cart_for d m c -> Forall (fun x => length x = m) X -> converts single X -> clean_cart single X c ->
  right_rows X y (single_class single c label) rs <-> right_rows X y (cart_class c label) rs.
Proof. intros. eapply same_right_rows; eauto. Qed.
Print Assumptions C72_right_rows.

(** * Where it makes a difference *)

(** A float32 number is a multiple of 2^k or smaller than 2^(k + 23). *)
Lemma float32_grid k r : float32 r -> (exists z, r == inject_Z z * 2 ^ k)%Q \/ (r < 2 ^ (k + 23) /\ - 2 ^ (k + 23) < r)%Q.
Proof.
  intros (m & e & Hm & He & E). destruct (Z_le_gt_dec k e) as [H|H].
  - left. exists (m * 2 ^ (e - k))%Z. rewrite E, inject_Z_mult, <- pow2_nat by lia. replace e with (e - k + k)%Z at 1 by lia. rewrite pow2_split. ring.
  - right. assert (B : (inject_Z (2 ^ 24) * 2 ^ e <= 2 ^ (k + 23))%Q).
    { rewrite <- (pow2_nat 24), <- pow2_split by lia. replace (k + 23)%Z with (24 + e + (k - 1 - e))%Z by lia. rewrite (pow2_split (24 + e)), (pow2_nat (k - 1 - e)) by lia.
      assert (1 <= inject_Z (2 ^ (k - 1 - e)))%Q by (change 1%Q with (inject_Z 1); rewrite <- Zle_Qle; pose proof (Z.pow_pos_nonneg 2 (k - 1 - e)); lia).
      pose proof (pow2_pos (24 + e)) as P. rewrite <- (Qmult_1_r (2 ^ (24 + e))) at 1. apply Qmult_le_l; auto. }
    pose proof (pow2_pos e) as P.
    assert (U : (inject_Z m * 2 ^ e < inject_Z (2 ^ 24) * 2 ^ e)%Q) by (apply Qmult_lt_r; auto; rewrite <- Zlt_Qlt; lia).
    assert (L : (inject_Z (- 2 ^ 24) * 2 ^ e < inject_Z m * 2 ^ e)%Q) by (apply Qmult_lt_r; auto; rewrite <- Zlt_Qlt; lia).
    rewrite inject_Z_opp in L. rewrite E. split; lra.
Qed.
Lemma closest_self (F : Q -> Prop) q : F q -> closest F q q.
Proof. intros H. split; auto. intros r _. setoid_replace (q - q)%Q with 0%Q by ring. apply Qabs_nonneg. Qed.
Ltac in_format m e := exists m, e; split; [reflexivity|split; [split; discriminate|reflexivity]].

(** 1 + 2^-23 and 1 + 2^-22 are neighbours in float32; the number halfway is rounded to the even one, the larger. *)
Definition low : Q := 8388609 # 8388608.
Definition mid : Q := 16777219 # 16777216.
Definition high : Q := 8388610 # 8388608.
Definition to_single (q : Q) : Q := if Qeq_bool q mid then high else q.
Lemma low_single : float32 low. Proof. in_format 8388609%Z (-23)%Z. Qed.
Lemma high_single : float32 high. Proof. in_format 8388610%Z (-23)%Z. Qed.
Lemma mid_double : float64 mid. Proof. in_format 16777219%Z (-24)%Z. Qed.
Lemma to_high q : (mid <= q <= high)%Q -> closest float32 q high.
Proof.
  intros Hq. split; [exact high_single|]. intros r Hr.
  assert (C : (r <= low \/ high <= r)%Q).
  { destruct (float32_grid (-23) r Hr) as [[z E]|[H _]].
    - rewrite E. setoid_replace (2 ^ (-23))%Q with (1 # 8388608)%Q by reflexivity. destruct (Z_le_gt_dec z 8388609) as [H|H]; [left|right].
      + apply (Qle_trans _ (inject_Z 8388609 * (1 # 8388608))); [apply Qmult_le_compat_r; [rewrite <- Zle_Qle; lia|discriminate]|vm_compute; discriminate].
      + apply (Qle_trans _ (inject_Z 8388610 * (1 # 8388608))); [vm_compute; discriminate|apply Qmult_le_compat_r; [rewrite <- Zle_Qle; lia|discriminate]].
    - left. setoid_replace (2 ^ (-23 + 23))%Q with 1%Q in H by reflexivity. unfold low. lra. }
  unfold low, high, mid in *. destruct (abs_cases (r - q)) as [[A E]|[A E]]; rewrite E; destruct (abs_cases ((8388610 # 8388608) - q)) as [[A' E']|[A' E']]; rewrite E'; destruct C; lra.
Qed.
Lemma mid_tie : closest float32 mid high.
Proof. apply to_high. split; vm_compute; discriminate. Qed.

(** A training sample whose value is exactly the threshold: CART sends it to the right, the estimator to the left.  Two samples;
    the script reports accuracy 1 for CART and 1/2 for the trained tree. *)
Definition tie_world : world :=
  mkWorld [[low]; [mid]] [0; 1] [[low]; [mid]] [0; 1] (fun _ => stump 0 mid) (stump 0 mid) (fun i => if i =? 1 then 0 else 1) to_single
    (fun _ => stump 0 mid) (fun _ => 0%Q) (fun _ => 0%Q) (fun _ => 0%Q) (two_answers (fun j => nth j [1; 1] 0, fun i => nth i [1; 0] 0)%Q (fun j => nth j [1; 1] 0, fun i => nth i [1; 0] 0)%Q).
Lemma tie_input : script_input tie_world plain.
Proof.
  constructor; cbn.
  - lia.
  - lia.
  - auto.
  - exists 1. split; [repeat constructor|]. split; [intros; apply stump_for; lia|]. split; [apply stump_for; lia|intros; apply stump_for; lia].
  - exists 0, 0, mid. apply stump_tests. auto.
  - split.
    + intros c Hc. cbn in Hc. destruct c as [|[|c]]; [left; auto|right; left; auto|lia].
    + exists 0, 1. repeat split; auto.
Qed.
Lemma tie_kept : splits_kept tie_world plain.
Proof.
  intros n m Hn Hm cs. cbn [op_depth wd_final wd_first wd_more tie_world plain] in *. split.
  - split; [unfold cs; rewrite map_length, seq_length; lia|]. intros h Hh. cbn in Hh. assert (h = 0) by lia. subst h. split; [vm_compute; lia|]. left. exists 0, mid. apply stump_tests. auto.
  - intros c h f u Hc Ht. apply in_map_iff in Hc. destruct Hc as (i & <- & _). apply stump_tests in Ht. destruct Ht as (-> & -> & ->). left. split.
    + exists (stump 0 mid), mid. split; [apply in_or_app; right; left; reflexivity|]. split; [apply stump_tests; auto|reflexivity].
    + exists [(0, mid)]. split; [vm_compute; lia|]. intros k0 _ c' f' u' k' Hc' Ht' _ _. exists mid.
      assert (c' = stump 0 mid) as -> by (apply in_app_or in Hc'; destruct Hc' as [Hc'|[<-|[]]]; [|reflexivity]; apply in_map_iff in Hc'; destruct Hc' as (i' & <- & _); reflexivity).
      apply stump_tests in Ht'. destruct Ht' as (_ & -> & ->). split; [left; reflexivity|reflexivity].
Qed.
Lemma tie_converts : converts to_single (wd_X tie_world ++ wd_Xt tie_world).
Proof.
  intros x q Hx Hq. assert (q = low \/ q = mid) as [-> | ->] by (cbn in Hx; destruct Hx as [<-|[<-|[<-|[<-|[]]]]]; destruct Hq as [<-|[]]; auto).
  - split; [apply single_double, low_single|]. apply closest_self, low_single.
  - split; [apply mid_double|]. apply mid_tie.
Qed.
Lemma stump_test g u i f t : cart_test (stump g u) i f t -> i = 0 /\ f = g /\ t = u.
Proof. intros ((a & b & Ea & Eb & Hne) & Ef & Et). destruct i as [|[|[|i]]]; cbn in *; try (split; [reflexivity|split; congruence]); congruence. Qed.
Lemma tie_halfway j c i f t : c = wd_first tie_world j \/ c = wd_final tie_world \/ c = wd_more tie_world j -> cart_test c i f t ->
  exists a b, halfway (wd_single tie_world) (wd_X tie_world) c i f t a b.
Proof.
  intros Hc T. assert (c = stump 0 mid) as -> by (destruct Hc as [->|[->| ->]]; reflexivity).
  apply stump_test in T. destruct T as (-> & -> & ->).
  exists low, high. split; [apply low_single|]. split; [apply high_single|]. split; [reflexivity|]. split.
  - split; [apply mid_double|]. intros r' _. setoid_replace (mid - (low + high) / 2)%Q with 0%Q by reflexivity. apply Qabs_nonneg.
  - intros x k [<-|[<-|[]]] _; cbn [nth wd_single tie_world]; [left|right]; vm_compute; discriminate.
Qed.
Lemma tie_main : match main tie_world plain 9 with Done (r1, r2) => Qeq_bool (rs_train r1) 1 && Qeq_bool (rs_train r2) (1 # 2) = true | _ => False end.
Proof. vm_compute. reflexivity. Qed.
Theorem C72_tie_refuted : exists wd o fuel r1 r2, script_input wd o /\ splits_kept wd o /\ steady (wd_pre_clock wd) /\ always_honest (wd_solvers wd) /\ always_optimal (wd_solvers wd) /\
  converts (wd_single wd) (wd_X wd ++ wd_Xt wd) /\
  (forall j c i f t, c = wd_first wd j \/ c = wd_final wd \/ c = wd_more wd j -> cart_test c i f t -> exists a b, halfway (wd_single wd) (wd_X wd) c i f t a b) /\
  main wd o fuel = Done (r1, r2) /\ (rs_train r1 == 1)%Q /\ (rs_train r2 == 1 # 2)%Q.
Proof.
  pose proof tie_main as Hm. destruct (main tie_world plain 9) as [[r1 r2]|e|] eqn:Em; [|exfalso; exact Hm|exfalso; exact Hm].
  apply andb_true_iff in Hm. destruct Hm as [M1 M2]. apply Qeq_bool_iff in M1, M2. exists tie_world, plain, 9, r1, r2. clear - M1 M2 Em.
  split; [apply tie_input|]. split; [apply tie_kept|]. split; [intros a b c; cbn; lra|]. split; [apply two_honest|]. split; [apply two_optimal|]. split; [apply tie_converts|].
  split; [exact tie_halfway|]. split; [exact Em|]. split; [exact M1|exact M2].
Qed.
Print Assumptions C72_tie_refuted.

(** On other samples the tree and its unconverted version can differ: 1/2 + 2^-30 is above the threshold 1/2 + 2^-31, but it is
    converted to 1/2. *)
Definition tiny : Q := 1 # 1073741824.
Definition half_tiny : Q := 1 # 2147483648.
Lemma unseen_closest : closest float32 ((1 # 2) + tiny) (1 # 2).
Proof.
  split; [in_format 1%Z (-1)%Z|]. intros r Hr. unfold tiny.
  assert (C : (r <= 1 # 2 \/ (1 # 2) + (1 # 16777216) <= r)%Q).
  { destruct (float32_grid (-24) r Hr) as [[z E]|[H _]].
    - rewrite E. setoid_replace (2 ^ (-24))%Q with (1 # 16777216)%Q by reflexivity. destruct (Z_le_gt_dec z 8388608) as [H|H]; [left|right].
      + apply (Qle_trans _ (inject_Z 8388608 * (1 # 16777216))); [apply Qmult_le_compat_r; [rewrite <- Zle_Qle; lia|discriminate]|vm_compute; discriminate].
      + apply (Qle_trans _ (inject_Z 8388609 * (1 # 16777216))); [vm_compute; discriminate|apply Qmult_le_compat_r; [rewrite <- Zle_Qle; lia|discriminate]].
    - left. setoid_replace (2 ^ (-24 + 23))%Q with (1 # 2)%Q in H by reflexivity. lra. }
  destruct (abs_cases (r - ((1 # 2) + (1 # 1073741824)))) as [[A E]|[A E]]; rewrite E; destruct (abs_cases ((1 # 2) - ((1 # 2) + (1 # 1073741824)))) as [[A' E']|[A' E']]; rewrite E'; destruct C; lra.
Qed.
Definition unseen_single (q : Q) : Q := if Qeq_bool q ((1 # 2) + tiny) then 1 # 2 else q.
Theorem C72_unseen_refuted : exists single X c x label, cart_for 1 1 c /\ Forall (fun x => length x = 1) (x :: X) /\ converts single (x :: X) /\ clean_cart single X c /\
  single_class single c label x 0 /\ cart_class c label x 1.
Proof.
  exists unseen_single, [[tiny]; [1%Q]], (stump 0 ((1 # 2) + half_tiny)%Q), [((1 # 2) + tiny)%Q], (fun i => i - 1).
  assert (F1 : float32 tiny) by in_format 1%Z (-30)%Z. assert (F2 : float32 1%Q) by in_format 1%Z 0%Z.
  split; [apply stump_for; lia|]. split; [repeat constructor|]. split; [|split; [|split]].
  - intros x q [<-|[<-|[<-|[]]]] [<-|[]].
    + split; [in_format 536870913%Z (-30)%Z|]. exact unseen_closest.
    + split; [apply single_double; exact F1|]. apply closest_self. exact F1.
    + split; [apply single_double; exact F2|]. apply closest_self. exact F2.
  - intros i f t T. apply stump_test in T. destruct T as (-> & -> & ->). exists tiny, 1%Q. split.
    + split; [exact F1|]. split; [exact F2|]. split; [reflexivity|]. split.
      * split; [in_format 1073741825%Z (-31)%Z|]. intros r' _. setoid_replace ((1 # 2) + half_tiny - (tiny + 1) / 2)%Q with 0%Q by reflexivity. apply Qabs_nonneg.
      * intros x k [<-|[<-|[]]] _; [left|right]; vm_compute; discriminate.
    + intros x k [<-|[<-|[]]] _ E; exfalso; revert E; vm_compute; discriminate.
  - exists 1, 1. split; [|split; [|reflexivity]].
    + eapply ds_step with (i := 0) (f := 0); [constructor|split; [|split; reflexivity]; do 2 eexists; split; [reflexivity|split; [reflexivity|discriminate]]|].
      split; [do 2 eexists; split; [reflexivity|split; [reflexivity|discriminate]]|reflexivity].
    + intros (a & b & Ea & Eb & Hne). cbn in Ea, Eb. congruence.
  - exists 1, 2. split; [|split; [|reflexivity]].
    + eapply ds_step with (i := 0) (f := 0); [constructor|split; [|split; reflexivity]; do 2 eexists; split; [reflexivity|split; [reflexivity|discriminate]]|].
      split; [do 2 eexists; split; [reflexivity|split; [reflexivity|discriminate]]|reflexivity].
    + intros (a & b & Ea & Eb & Hne). cbn in Ea, Eb. congruence.
Qed.
Print Assumptions C72_unseen_refuted.

(** * Cases *)

(** The run of C70_case. *)
Example C72_case_run : converts (wd_single fast) (wd_X fast) /\ clean_cart (wd_single fast) (wd_X fast) (wd_final fast).
Proof.
  split.
  - intros x q Hx Hq. cbn [wd_single fast main_world]. assert (F : float32 q); [|split; [apply single_double|apply closest_self]; exact F].
    cbn in Hx. destruct Hx as [<-|[<-|[<-|[]]]]; destruct Hq as [<-|[]]; [in_format 0%Z 0%Z|in_format 1%Z 0%Z|in_format 2%Z 0%Z].
  - intros i f t T. apply stump_test in T. destruct T as (-> & -> & ->). exists 1%Q, 2%Q. split.
    + split; [in_format 1%Z 0%Z|]. split; [in_format 2%Z 0%Z|]. split; [reflexivity|]. split.
      * split; [in_format 3%Z (-1)%Z|]. intros r' _. setoid_replace ((3 # 2) - (1 + 2) / 2)%Q with 0%Q by reflexivity. apply Qabs_nonneg.
      * intros x k Hx _. cbn in Hx. destruct Hx as [<-|[<-|[<-|[]]]]; [left|left|right]; vm_compute; discriminate.
    + intros x k Hx _ E. exfalso. cbn in Hx. destruct Hx as [<-|[<-|[<-|[]]]]; revert E; vm_compute; discriminate.
Qed.
(** A sample that the conversion changes. *)
Definition above : Q := mid + tiny.
Definition above_single (q : Q) : Q := if Qeq_bool q above then high else q.
Example C72_case : converts above_single [[low]; [above]] /\ clean_cart above_single [[low]; [above]] (stump 0 mid) /\ above_single above = high /\ ~ (above == high)%Q.
Proof.
  split; [|split; [|split; [reflexivity|vm_compute; discriminate]]].
  - intros x q Hx Hq. assert (q = low \/ q = above) as [-> | ->] by (destruct Hx as [<-|[<-|[]]]; destruct Hq as [<-|[]]; auto).
    + split; [apply single_double, low_single|]. apply closest_self, low_single.
    + split; [in_format 1073742017%Z (-30)%Z|]. apply to_high. split; vm_compute; discriminate.
  - intros i f t T. apply stump_test in T. destruct T as (-> & -> & ->). exists low, high. split.
    + split; [apply low_single|]. split; [apply high_single|]. split; [reflexivity|]. split.
      * split; [apply mid_double|]. intros r' _. setoid_replace (mid - (low + high) / 2)%Q with 0%Q by reflexivity. apply Qabs_nonneg.
      * intros x k [<-|[<-|[]]] _; [left|right]; vm_compute; discriminate.
    + intros x k [<-|[<-|[]]] _ E; exfalso; revert E; vm_compute; discriminate.
Qed.

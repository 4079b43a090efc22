(** Lemmas about TunerFloatModel.v. *)
From Coq Require Import Reals List Bool Lia Lra ZArith.
From Flocq Require Import Core.
From Verif Require Import TunerFloatModel.
Import ListNotations.
Open Scope R_scope.

#[local] Instance b64_valid : Valid_exp b64_exp.
Proof. unfold b64_exp. apply FLT_exp_valid. unfold Prec_gt_0. lia. Qed.

Lemma rnd_0 : rnd 0 = 0.
Proof. apply round_0. apply valid_rnd_N. Qed.

Lemma rnd_le x y : x <= y -> rnd x <= rnd y.
Proof. apply round_le; [apply b64_valid|apply valid_rnd_N]. Qed.

Lemma rnd_id x : b64 x -> rnd x = x.
Proof. apply round_generic. apply valid_rnd_N. Qed.

Lemma rnd_format x : b64 (rnd x).
Proof. apply generic_format_round; [apply b64_valid|apply valid_rnd_N]. Qed.

Lemma rnd_pos x : 0 <= x -> 0 <= rnd x.
Proof. intros H. rewrite <- rnd_0. apply rnd_le; auto. Qed.

Lemma rnd_opp x : rnd (- x) = - rnd x.
Proof. apply round_NE_opp. Qed.

Lemma b64_opp x : b64 x -> b64 (- x).
Proof. apply generic_format_opp. Qed.

(** Powers of two from the smallest exponent on are representable. *)
Lemma b64_bpow e : (-1074 <= e)%Z -> b64 (bpow radix2 e).
Proof.
  intros H. apply generic_format_FLT_bpow; auto. unfold Prec_gt_0. lia.
Qed.

(** Difference of two floats: a multiple of the smallest unit. *)
Lemma diff_lower x y : b64 x -> b64 y -> y < x -> bpow radix2 (-1074) <= x - y.
Proof.
  intros Hx Hy H.
  assert (G : forall z, b64 z -> exists k : Z, z = IZR k * bpow radix2 (-1074)).
  { intros z Hz. unfold b64, generic_format, F2R in Hz. simpl in Hz.
    set (m := Ztrunc (scaled_mantissa radix2 b64_exp z)) in Hz.
    set (e := cexp radix2 b64_exp z) in Hz.
    assert (He : (-1074 <= e)%Z) by (unfold e, cexp, b64_exp, FLT_exp; lia).
    exists (m * 2 ^ (e + 1074))%Z. rewrite Hz. rewrite mult_IZR.
    replace (IZR (2 ^ (e + 1074))) with (bpow radix2 (e + 1074)).
    - rewrite Rmult_assoc, <- bpow_plus. f_equal. f_equal. lia.
    - rewrite <- IZR_Zpower by lia. reflexivity. }
  destruct (G x Hx) as [k Hk]. destruct (G y Hy) as [l Hl].
  pose proof (bpow_gt_0 radix2 (-1074)) as Hb. set (b := bpow radix2 (-1074)) in *.
  rewrite Hk, Hl in H |- *.
  assert (Hlt : (l < k)%Z).
  { apply lt_IZR. apply Rmult_lt_reg_r with b; auto. }
  assert (H1 : 1 <= IZR k - IZR l) by (rewrite <- minus_IZR; apply IZR_le; lia).
  nra.
Qed.

Lemma mean_step_up m x n : b64 m -> b64 x -> (2 <= n)%nat -> m <= x ->
  let m' := rnd (m + rnd (rnd (x - m) / INR n)) in m <= m' <= x.
Proof.
  intros Hm Hx Hn Hle m'. unfold m'.
  assert (Hn2 : 2 <= INR n) by (change 2 with (INR 2); apply le_INR; auto).
  destruct (Req_dec m x) as [E|NE].
  - subst x. replace (m - m) with 0 by lra. rewrite rnd_0.
    replace (0 / INR n) with 0 by (field; lra). rewrite rnd_0, Rplus_0_r, rnd_id by auto. lra.
  - assert (Hlt : m < x) by lra.
    assert (Hd : 0 <= rnd (x - m)) by (apply rnd_pos; lra).
    assert (Hq0 : 0 <= rnd (rnd (x - m) / INR n)).
    { apply rnd_pos. apply Rle_mult_inv_pos; lra. }
    assert (Hq : rnd (rnd (x - m) / INR n) <= x - m).
    { pose proof (diff_lower x m Hx Hm Hlt) as Hmin.
      destruct (mag radix2 (x - m)) as [e He]. simpl in He.
      assert (Hne : x - m <> 0) by lra. specialize (He Hne).
      rewrite Rabs_pos_eq in He by lra. destruct He as [He1 He2].
      assert (Hemin : (-1074 <= e - 1)%Z).
      { assert (bpow radix2 (-1074) < bpow radix2 e) by lra. apply lt_bpow in H. lia. }
      assert (Hdu : rnd (x - m) <= bpow radix2 e).
      { rewrite <- (rnd_id (bpow radix2 e)) by (apply b64_bpow; lia). apply rnd_le. lra. }
      apply Rle_trans with (bpow radix2 (e - 1)); [|exact He1].
      rewrite <- (rnd_id (bpow radix2 (e - 1))) by (apply b64_bpow; lia). apply rnd_le.
      assert (Eb : bpow radix2 e = 2 * bpow radix2 (e - 1)).
      { replace e with (1 + (e - 1))%Z at 1 by lia. rewrite bpow_plus. simpl. lra. }
      apply Rle_trans with (rnd (x - m) / 2).
      - unfold Rdiv. apply Rmult_le_compat_l; auto. apply Rinv_le; lra.
      - lra. }
    split.
    + rewrite <- (rnd_id m Hm) at 1. apply rnd_le. lra.
    + rewrite <- (rnd_id x Hx) at 2. apply rnd_le. lra.
Qed.

Lemma mean_step m x n : b64 m -> b64 x -> (2 <= n)%nat ->
  let m' := rnd (m + rnd (rnd (x - m) / INR n)) in
  b64 m' /\ ((m <= m' <= x) \/ (x <= m' <= m)).
Proof.
  intros Hm Hx Hn m'. split; [apply rnd_format|].
  destruct (Rle_or_lt m x) as [H|H].
  - left. apply mean_step_up; auto.
  - right. pose proof (mean_step_up (-m) (-x) n (b64_opp _ Hm) (b64_opp _ Hx) Hn ltac:(lra)) as S.
    cbv zeta in S. replace (- x - - m) with (- (x - m)) in S by lra.
    rewrite rnd_opp in S. replace (- rnd (x - m) / INR n) with (- (rnd (x - m) / INR n)) in S by (unfold Rdiv; ring).
    rewrite rnd_opp in S.
    replace (- m + - rnd (rnd (x - m) / INR n)) with (- (m + rnd (rnd (x - m) / INR n))) in S by ring.
    rewrite rnd_opp in S. fold m' in S. lra.
Qed.

(** Invariant: [l] are the values pushed since the last clear. *)
Definition fs_inv (s : fstat) (l : list R) : Prop :=
  fs_num s = length l /\
  (l <> [] -> fs_old_mean s = fs_new_mean s /\ b64 (fs_new_mean s) /\ 0 <= fs_old_std s
              /\ (forall lo hi, (forall x, In x l -> lo <= x <= hi) -> lo <= fs_new_mean s <= hi)) /\
  ((1 < length l)%nat -> fs_new_std s = fs_old_std s).

Definition f_live (l : list R) (o : fs_op) : list R := match o with FPush x => l ++ [x] | FClear => [] end.

Lemma fs_step_inv s l o :
  (match o with FPush x => b64 x | FClear => True end) ->
  fs_inv s l -> fs_inv (fs_step s o) (f_live l o).
Proof.
  intros Ho (Hn & Hm & Hs). destruct o as [x|]; simpl.
  - unfold fs_push. rewrite Hn. destruct l as [|a l].
    + simpl. split; [reflexivity|]. simpl. split; [|lia]. intros _. repeat split; auto; try lra.
      * apply H; auto.
      * apply H; auto.
    + set (l0 := a :: l) in *. assert (Hne : l0 <> []) by discriminate.
      assert (Hlen : (1 <= length l0)%nat) by (simpl; lia).
      destruct (Nat.eqb_spec (S (length l0)) 1); [lia|].
      destruct (Hm Hne) as (E1 & F1 & S1 & B1).
      destruct (mean_step (fs_old_mean s) x (S (length l0))) as [F2 B2]; auto; try lia; [rewrite E1; auto|].
      set (m' := rnd (fs_old_mean s + _)) in *.
      assert (SP : 0 <= rnd (fs_old_std s + rnd (rnd (x - fs_old_mean s) * rnd (x - m')))).
      { apply rnd_pos. assert (0 <= rnd (rnd (x - fs_old_mean s) * rnd (x - m'))); [|lra].
        apply rnd_pos. destruct B2 as [B2|B2].
        - assert (0 <= rnd (x - fs_old_mean s)) by (apply rnd_pos; lra).
          assert (0 <= rnd (x - m')) by (apply rnd_pos; lra). nra.
        - assert (Z1 : rnd (x - fs_old_mean s) <= 0) by (rewrite <- rnd_0; apply rnd_le; lra).
          assert (Z2 : rnd (x - m') <= 0) by (rewrite <- rnd_0; apply rnd_le; lra). nra. }
      split; [|split]; cbn [fs_num fs_old_mean fs_new_mean fs_old_std fs_new_std].
      * rewrite app_length. simpl. lia.
      * intros _. repeat split; auto;
          (assert (HB := B1 lo hi (fun z Hz => H z (in_or_app _ _ _ (or_introl Hz))));
           assert (HX := H x (in_or_app l0 [x] x (or_intror (in_eq x [])))); rewrite E1 in B2; lra).
      * auto.
  - split; [reflexivity|]. simpl. split; [congruence|lia].
Qed.

Definition f_ok (o : fs_op) : Prop := match o with FPush x => b64 x | FClear => True end.

Lemma fs_run_inv h : Forall f_ok h -> fs_inv (fs_run h) (fold_left f_live h []).
Proof.
  unfold fs_run. assert (I0 : fs_inv fs_init []) by (split; [reflexivity|]; simpl; split; [congruence|lia]).
  revert I0. generalize fs_init, (@nil R). induction h as [|o h IH]; intros s l I Hh; [exact I|].
  inversion Hh; subst. simpl. apply IH; auto. apply fs_step_inv; auto.
Qed.

Lemma f_live_pushes l acc : fold_left f_live (map FPush l) acc = acc ++ l.
Proof.
  revert acc; induction l as [|x l IH]; simpl; intros acc; [rewrite app_nil_r; auto|].
  rewrite IH, <- app_assoc. reflexivity.
Qed.

Lemma fs_variance_nonneg h : Forall f_ok h -> 0 <= fs_variance (fs_run h).
Proof.
  intros Hh. destruct (fs_run_inv h Hh) as (Hn & Hm & Hs). unfold fs_variance.
  destruct (Nat.ltb_spec 1 (fs_num (fs_run h))); [|lra].
  rewrite Hs by lia. apply rnd_pos. apply Rle_mult_inv_pos.
  - apply Hm. intros E. rewrite E in Hn. simpl in Hn. lia.
  - apply lt_0_INR. lia.
Qed.

Lemma fs_mean_range h l lo hi :
  Forall f_ok h -> l <> [] ->
  (h = map FPush l \/ exists h0, h = h0 ++ FClear :: map FPush l) ->
  (forall x, In x l -> lo <= x <= hi) -> lo <= fs_mean (fs_run h) <= hi.
Proof.
  intros Hh Hne Hl Hb. pose proof (fs_run_inv h Hh) as I.
  assert (E : fold_left f_live h [] = l).
  { destruct Hl as [->|[h0 ->]]; [apply f_live_pushes|].
    rewrite fold_left_app. simpl. apply f_live_pushes. }
  rewrite E in I. destruct I as (Hn & Hm & _). unfold fs_mean.
  destruct (Nat.ltb_spec 0 (fs_num (fs_run h))) as [H|H].
  - apply Hm; auto.
  - rewrite Hn in H. destruct l; [congruence|simpl in H; lia].
Qed.

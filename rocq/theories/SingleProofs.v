(** The conversion to float32 does not change how CART treats the training samples. *)
From Coq Require Import Qabs Qpower.
From Verif Require Import Base LpProofs TreeModel ExpModel SpecExp SpecPrep SpecSingle.
Open Scope Q_scope.

Lemma pow2_pos e : 0 < 2 ^ e.
Proof. apply Qpower_0_lt. reflexivity. Qed.
Lemma pow2_split a b : 2 ^ (a + b) == 2 ^ a * 2 ^ b.
Proof. apply Qpower_plus. discriminate. Qed.
Lemma pow2_nat n : (0 <= n)%Z -> 2 ^ n == inject_Z (2 ^ n).
Proof. intros H. rewrite Zpower_Qpower by auto. reflexivity. Qed.
Lemma single_double q : float32 q -> float64 q.
Proof. intros (m & e & Hm & He & E). exists m, e. split; [eapply Z.lt_trans; [exact Hm|reflexivity]|]. split; [lia|exact E]. Qed.
(** Between two float32 numbers there is a float64 number. *)
Lemma double_between a b : float32 a -> float32 b -> a < b -> exists g, float64 g /\ a < g /\ g < b.
Proof.
  intros (m1 & e1 & Hm1 & He1 & E1) (m2 & e2 & Hm2 & He2 & E2) Hab. rewrite E1, E2 in Hab.
  destruct (Z_le_gt_dec e1 e2) as [Hle|Hgt].
  - assert (E2' : inject_Z m2 * 2 ^ e2 == inject_Z (m2 * 2 ^ (e2 - e1)) * 2 ^ e1).
    { rewrite inject_Z_mult, <- pow2_nat by lia. replace e2 with (e2 - e1 + e1)%Z at 1 by lia. rewrite pow2_split. ring. }
    rewrite E2' in Hab. pose proof (pow2_pos e1) as P. apply Qmult_lt_r in Hab; auto. rewrite <- Zlt_Qlt in Hab.
    assert (S : inject_Z (m1 + 1) * 2 ^ e1 <= b).
    { rewrite E2, E2'. apply Qmult_le_compat_r; [rewrite <- Zle_Qle; lia|lra]. }
    rewrite inject_Z_plus in S. change (inject_Z 1) with 1 in S.
    exists (a + 2 ^ e1 * (1 # 2)). split; [|split; lra].
    exists (2 * m1 + 1)%Z, (e1 - 1)%Z. split; [change (2 ^ 53)%Z with 9007199254740992%Z; change (2 ^ 24)%Z with 16777216%Z in *; lia|]. split; [lia|].
    rewrite E1, inject_Z_plus, inject_Z_mult. change (inject_Z 1) with 1. change (inject_Z 2) with 2. replace e1 with (e1 - 1 + 1)%Z at 1 2 by lia. rewrite pow2_split. change (2 ^ 1) with 2. ring.
  - assert (E1' : inject_Z m1 * 2 ^ e1 == inject_Z (m1 * 2 ^ (e1 - e2)) * 2 ^ e2).
    { rewrite inject_Z_mult, <- pow2_nat by lia. replace e1 with (e1 - e2 + e2)%Z at 1 by lia. rewrite pow2_split. ring. }
    rewrite E1' in Hab. pose proof (pow2_pos e2) as P. apply Qmult_lt_r in Hab; auto. rewrite <- Zlt_Qlt in Hab.
    assert (S : a <= inject_Z (m2 - 1) * 2 ^ e2).
    { rewrite E1, E1'. apply Qmult_le_compat_r; [rewrite <- Zle_Qle; lia|lra]. }
    replace (m2 - 1)%Z with (m2 + -1)%Z in S by lia. rewrite inject_Z_plus in S. change (inject_Z (-1)) with (- (1)) in S.
    exists (b - 2 ^ e2 * (1 # 2)). split; [|split; lra].
    exists (2 * m2 + -1)%Z, (e2 - 1)%Z. split; [change (2 ^ 53)%Z with 9007199254740992%Z; change (2 ^ 24)%Z with 16777216%Z in *; lia|]. split; [lia|].
    rewrite E2, inject_Z_plus, inject_Z_mult. change (inject_Z (-1)) with (-(1)). change (inject_Z 2) with 2. replace e2 with (e2 - 1 + 1)%Z at 1 2 by lia. rewrite pow2_split. change (2 ^ 1) with 2. ring.
Qed.

Lemma abs_cases x : (0 <= x /\ Qabs x == x) \/ (x <= 0 /\ Qabs x == - x).
Proof. destruct (Qlt_le_dec x 0); [right|left]; split; try lra; [apply Qabs_neg|apply Qabs_pos]; lra. Qed.
Ltac qabs := repeat match goal with H : context [Qabs ?x] |- _ => let A := fresh "A" in let E := fresh "E" in destruct (abs_cases x) as [[A E]|[A E]]; rewrite E in H; clear E end.

Lemma same_side v s a b t : float64 v -> closest float32 v s -> float32 a -> float32 b -> a < b -> closest float64 ((a + b) / 2) t ->
  s <= a \/ b <= s -> (v == t -> s <= a) -> (s <= t <-> v <= t).
Proof.
  intros Fv [Fs Cs] Fa Fb Hab [Ft Ct] Hs Hv. unfold Qdiv in Ct. change (/ 2) with (1 # 2) in Ct.
  pose proof (Cs a Fa) as C1. pose proof (Cs b Fb) as C2. pose proof (Ct a (single_double _ Fa)) as C3. pose proof (Ct v Fv) as C4.
  destruct (double_between a b Fa Fb Hab) as (g & Fg & G1 & G2). pose proof (Ct g Fg) as C5. clear Cs Ct.
  destruct Hs as [Hs|Hs].
  - assert (H1 : a <= t) by (clear C1 C2 C4 C5; qabs; lra).
    assert (H2 : v <= (a + b) * (1 # 2)) by (clear C1 C3 C4 C5; qabs; lra).
    assert (H3 : v <= t) by (clear C1 C2 C3 C5; qabs; lra). split; intros _; lra.
  - assert (H1 : t < b) by (clear C1 C2 C4 C3; qabs; lra).
    assert (H2 : (a + b) * (1 # 2) <= v) by (clear C2 C3 C4 C5; qabs; lra).
    assert (H3 : t <= v) by (clear C1 C2 C3 C5; qabs; lra). split; intros H; [lra|]. assert (v == t) by lra. specialize (Hv H0). lra.
Qed.

Open Scope nat_scope.
Section Tree.
Variables (single : Q -> Q) (X : list sample) (c : cart) (d m : nat).
Hypothesis HC : cart_for d m c.
Hypothesis HX : Forall (fun x => length x = m) X.
Hypothesis Hs : converts single X.
Hypothesis Hc : clean_cart single X c.

Lemma same_test x k i f t : In x X -> descends c (map single x) k i -> (exists h, positioned c i h) -> cart_test c i f t ->
  Qle_bool (nth f (map single x) 0%Q) t = Qle_bool (nth f x 0%Q) t.
Proof.
  intros Hx D (h & P) T. destruct (Hc i f t T) as (a & b & (Fa & Fb & Hab & Ct & Hn) & He). specialize (Hn x k Hx D). specialize (He x k Hx D).
  rewrite Forall_forall in HX. destruct HC as [_ Hf]. destruct (Hf h f t) as [_ Hfm]; [exists i; auto|]. pose proof (HX x Hx) as Hl.
  destruct (Hs x (nth f x 0%Q) Hx) as [Fv Cv]; [apply nth_In; lia|].
  rewrite (nth_indep (map single x) 0%Q (single 0%Q)), map_nth by (rewrite map_length; lia).
  apply Bool.eq_iff_eq_true. rewrite !Qle_bool_iff. exact (same_side _ _ a b t Fv Cv Fa Fb Hab Ct Hn He).
Qed.
Lemma descends_positioned x k i : descends c x k i -> exists h, positioned c i h.
Proof.
  induction 1 as [|k i f t j D (h & P) T C]; [exists 0; constructor|]. destruct (Qle_bool _ _); eexists; [eapply at_left|eapply at_right]; eauto.
Qed.
Lemma same_descent x k i : In x X -> descends c (map single x) k i <-> descends c x k i.
Proof.
  intros Hx. split; intros D.
  - revert i D. induction k as [|k IH]; intros i D; inversion D; subst; [constructor|].
    eapply ds_step; [apply IH; eassumption|eassumption|]. erewrite <- same_test; eauto using descends_positioned.
  - revert i D. induction k as [|k IH]; intros i D; inversion D; subst; [constructor|].
    match goal with H : descends c x k _ |- _ => pose proof (IH _ H) as D' end.
    eapply ds_step; [exact D'|eassumption|]. erewrite same_test; eauto using descends_positioned.
Qed.
Lemma same_class label x t : In x X -> single_class single c label x t <-> cart_class c label x t.
Proof. intros Hx. split; intros (k & i & D & N & E); exists k, i; (split; [apply same_descent; auto|auto]). Qed.
Lemma same_right_rows y label rs : right_rows X y (single_class single c label) rs <-> right_rows X y (cart_class c label) rs.
Proof.
  split; intros [N H]; (split; [exact N|]); intros r; rewrite H; (split; intros (x & t & E1 & E2 & E3); exists x, t; (split; [exact E1|]); (split; [exact E2|]); apply same_class; eauto using nth_error_In).
Qed.
End Tree.

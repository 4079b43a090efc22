(** Lemmas about the experiment script (ExpMainModel.v). *)
From Verif Require Import Base Lp LpProofs FitModel TreeModel TreePricingModel TreeFitModel ExpModel ExpMainModel.
From Verif Require Import SpecTree SpecTreeRun SpecTreeLp SpecTreePrice SpecTreeMip SpecTreeTrain SpecTreeResult SpecExp SpecPrep SpecSingle SpecMain.
From Verif Require Import TreePathProofs TreeBuildProofs ExpCartProofs ExpCheck.
Open Scope nat_scope.

Lemma over_spec limit clk k : over limit clk k = true <-> (0 < limit /\ limit < clk k - clk 0%nat)%Q.
Proof. unfold over. rewrite andb_true_iff, !Qltb_true. reflexivity. Qed.

Lemma take_spec make limit clk : forall n a k cs k', take_trees (seq a n) make limit clk k = (cs, k') ->
  exists m, m <= n /\ cs = map make (seq a m) /\ (m < n -> (0 < limit)%Q /\ exists j, k <= j /\ j < k' /\ (limit < clk j - clk 0%nat)%Q) /\ k <= k'.
Proof.
  induction n as [|n IH]; intros a k cs k' E; cbn [seq take_trees] in E; [injection E as <- <-; exists 0; repeat split; auto; lia|].
  destruct (over limit clk k) eqn:Eo.
  - injection E as <- <-. exists 0. apply over_spec in Eo. split; [lia|]. split; [reflexivity|]. split; [|lia]. intros _. split; [apply Eo|]. exists k. split; [lia|]. split; [lia|apply Eo].
  - destruct (take_trees (seq (S a) n) make limit clk (tick limit k)) as [cs1 k1] eqn:E1. injection E as <- <-. destruct (IH _ _ _ _ E1) as (m & Hm & -> & Hs & Hk).
    assert (Ht : k <= tick limit k) by (unfold tick; destruct (Qltb 0 limit); lia).
    exists (S m). split; [lia|]. split; [reflexivity|]. split; [|lia]. intros H. destruct (Hs ltac:(lia)) as (H1 & j & J1 & J2 & J3). split; auto. exists j. split; [lia|]. split; auto.
Qed.

(** * Scores *)

Lemma combine_count : forall (p y : list nat), length p = length y ->
  length (filter (fun ab => fst ab =? snd ab) (combine p y)) = length (filter (fun r => nth r p 0 =? nth r y 0) (seq 0 (length p))).
Proof.
  induction p as [|a p IH]; intros [|b y] E; try discriminate; [reflexivity|]. cbn [combine filter length seq fst snd]. change (nth 0 (a :: p) 0) with a. change (nth 0 (b :: y) 0) with b. injection E as E.
  assert (H : length (filter (fun r => nth r (a :: p) 0 =? nth r (b :: y) 0) (seq 1 (length p))) = length (filter (fun r => nth r p 0 =? nth r y 0) (seq 0 (length p)))).
  { rewrite <- seq_shift. generalize (seq 0 (length p)). intros l. induction l as [|r l IHl]; [reflexivity|]. cbn [map filter].
    change (nth (S r) (a :: p) 0) with (nth r p 0). change (nth (S r) (b :: y) 0) with (nth r y 0). destruct (nth r p 0 =? nth r y 0); cbn [length]; rewrite IHl; reflexivity. }
  destruct (a =? b); cbn [length]; rewrite IH, H by auto; reflexivity.
Qed.
Lemma score_right pred X y (assigns : sample -> nat -> Prop) q : length pred = length X -> length y = length X ->
  (forall r x t a, nth_error X r = Some x -> nth_error y r = Some t -> nth_error pred r = Some a -> (assigns x t <-> a = t)) ->
  score pred y = Ok q -> accuracy X y assigns q.
Proof.
  intros E1 E2 H Es. unfold score in Es. destruct (length pred =? 0) eqn:E0; [discriminate|]. injection Es as <-. apply Nat.eqb_neq in E0.
  rewrite combine_count by congruence. exists (filter (fun r => nth r pred 0 =? nth r y 0) (seq 0 (length pred))). split.
  - split; [apply NoDup_filter, seq_NoDup|]. intros r. rewrite filter_In, in_seq, Nat.eqb_eq. split.
    + intros [Hr He]. destruct (nth_error_some_lt X r) as [x Ex]; [lia|]. destruct (nth_error_some_lt y r) as [t Et]; [lia|]. destruct (nth_error_some_lt pred r) as [a Ea]; [lia|].
      exists x, t. split; auto. split; auto. apply (H r x t a); auto. rewrite (nth_error_nth pred r 0 Ea), (nth_error_nth y r 0 Et) in He. exact He.
    + intros (x & t & Ex & Et & Ha). assert (Hr : r < length X) by (apply nth_error_Some; congruence). split; [lia|]. destruct (nth_error_some_lt pred r) as [a Ea]; [lia|].
      rewrite (nth_error_nth pred r 0 Ea), (nth_error_nth y r 0 Et). apply (H r x t a); auto.
  - rewrite <- E1. set (n := length pred) in *. assert (Hn : ~ (inject_Z (Z.of_nat n) == 0)%Q) by (unfold inject_Z, Qeq; cbn; lia). field. exact Hn.
Qed.
Lemma accuracy_unique X y as1 as2 q1 q2 : 0 < length X ->
  (forall rs1 rs2, right_rows X y as1 rs1 -> right_rows X y as2 rs2 -> length rs1 <= length rs2) -> accuracy X y as1 q1 -> accuracy X y as2 q2 -> (q1 <= q2)%Q.
Proof.
  intros Hn H (rs1 & R1 & E1) (rs2 & R2 & E2). specialize (H rs1 rs2 R1 R2). set (n := length X) in *.
  assert (Hp : (0 < inject_Z (Z.of_nat n))%Q) by (unfold inject_Z, Qlt; cbn; lia).
  apply (Qmult_le_r _ _ (inject_Z (Z.of_nat n)) Hp). rewrite E1, E2. rewrite <- Zle_Qle. lia.
Qed.

(** * Evaluating a CART tree *)

Lemma cart_leaf_ok c x m d : cart_for d m c -> length x = m -> forall fuel k i, descends c x k i -> ct_count c <= fuel + i -> 0 < fuel -> (exists h, positioned c i h) ->
  exists j k', cart_leaf fuel c x i = Ok j /\ descends c x k' j /\ ~ inner c j.
Proof.
  intros [C Ct] Hx. induction fuel as [|fuel IH]; intros k i D Hf H0 (h & P); [lia|]. cbn [cart_leaf].
  destruct (le_lt_dec (ct_count c) i) as [Hge|Hi].
  { exfalso. inversion D; subst; [pose proof (ck_some _ C); lia|]. pose proof (ck_later _ C _ _ _ H2). lia. }
  destruct (nth_error_some_lt (ct_left c) i) as [a Ea]; [exact Hi|]. destruct (nth_error_some_lt (ct_right c) i) as [b Eb]; [rewrite (ck_right _ C); exact Hi|].
  rewrite (proj2 (getitem_ok _ _ _) Ea), (proj2 (getitem_ok _ _ _) Eb). cbn [bind]. destruct (Z.eqb_spec a b) as [E|E].
  { exists i, k. split; auto. split; auto. intros (a' & b' & E1 & E2 & Hne). congruence. }
  assert (Hin : inner c i) by (exists a, b; auto).
  destruct (nth_error_some_lt (ct_feature c) i) as [f Ef]; [rewrite (ck_feature _ C); exact Hi|]. destruct (nth_error_some_lt (ct_threshold c) i) as [t Et]; [rewrite (ck_threshold _ C); exact Hi|].
  rewrite (proj2 (getitem_ok _ _ _) Ef), (proj2 (getitem_ok _ _ _) Et). cbn [bind].
  assert (T : cart_test c i f t) by (split; auto). destruct (Ct h f t) as [_ Hfm]; [exists i; auto|].
  destruct (nth_error_some_lt x f) as [v Ev]; [lia|]. rewrite (proj2 (getitem_ok _ _ _) Ev). cbn [bind].
  assert (Env : nth f x 0%Q = v) by (apply nth_error_nth; auto).
  destruct (ck_child _ C i (Qle_bool v t) Hin) as (j & Hj). pose proof Hj as [_ Ej].
  replace (Z.to_nat (if Qle_bool v t then a else b)) with j by (destruct (Qle_bool v t); [rewrite Ea in Ej|rewrite Eb in Ej]; injection Ej as ->; lia).
  destruct (ck_later _ C _ _ _ Hj) as [Hij Hjc].
  apply (IH (S k) j); [|lia|lia|].
  - eapply ds_step; [exact D|exact T|]. rewrite Env. exact Hj.
  - destruct (Qle_bool v t); eexists; [eapply at_left|eapply at_right]; eauto.
Qed.
Lemma cart_leaf_unique c x k k' i i' : cart_ok c -> descends c x k i -> ~ inner c i -> descends c x k' i' -> ~ inner c i' -> i = i'.
Proof.
  intros C D N D' N'. destruct (Nat.lt_trichotomy k k') as [H|[->|H]].
  - destruct (descends_before _ _ _ _ D' k H) as (j & Dj & Hj). rewrite (descends_same _ _ _ _ D j Dj) in N. contradiction.
  - eapply descends_same; eauto.
  - destruct (descends_before _ _ _ _ D k' H) as (j & Dj & Hj). rewrite (descends_same _ _ _ _ D' j Dj) in N'. contradiction.
Qed.
Lemma cart_predict_ok single c class m d X : cart_for d m c -> Forall (fun x => length x = m) X ->
  exists pred, cart_predict single c class X = Ok pred /\ length pred = length X /\
    forall r x t a, nth_error X r = Some x -> nth_error pred r = Some a -> (single_class single c class x t <-> a = t).
Proof.
  intros C HX. unfold cart_predict. induction HX as [|x X Hx HX (pred & Ep & El & Hp)]; [exists []; repeat split; auto; destruct r; discriminate|].
  destruct (cart_leaf_ok c (map single x) m d C (eq_trans (map_length _ _) Hx) (S (ct_count c)) 0 0 (ds_root c _) ltac:(lia) ltac:(lia) ltac:(exists 0; constructor)) as (j & k & Ej & Dj & Nj).
  cbn [map_res]. rewrite Ej. cbn [bind]. rewrite Ep. cbn [bind]. exists (class j :: pred). split; [reflexivity|]. split; [cbn; congruence|].
  intros [|r] x' t a Ex Ea; cbn in Ex, Ea; [|apply (Hp r); auto]. injection Ex as <-. injection Ea as <-. split.
  - intros (k' & i & D & N & <-). f_equal. apply (cart_leaf_unique c (map single x) k k' j i (proj1 C)); auto.
  - intros <-. exists k, j. auto.
Qed.

(** * Predictions on encoded labels *)

Lemma classes_contiguous y : contiguous y -> classes_of y = seq 0 (S (list_max y)).
Proof.
  intros H. unfold classes_of, unique_classes. rewrite map_map. rewrite (map_ext _ (fun t => t)) by (intros; apply Nat2Z.id). rewrite map_id.
  assert (G : forall l, (forall t, In t l -> In t y) -> filter (fun t => memb t y) l = l).
  { induction l as [|t l IH]; intros Hl; [reflexivity|]. cbn. rewrite (proj2 (memb_In t y)) by (apply Hl; left; auto). f_equal. apply IH. intros; apply Hl; right; auto. }
  apply G. intros t Ht. apply in_seq in Ht. apply H. lia.
Qed.
Lemma decode_seq n z l : decode (seq 0 n) z = Ok l -> z = Z.of_nat l.
Proof.
  unfold decode. destruct (Z.ltb_spec z 0); [discriminate|]. destruct (nth_error (seq 0 n) (Z.to_nat z)) as [a|] eqn:E; [|discriminate]. intros H0. injection H0 as <-.
  assert (Hl : Z.to_nat z < n) by (rewrite <- (seq_length n 0); apply nth_error_Some; congruence).
  rewrite (nth_error_nth' _ 0), seq_nth in E by (rewrite ?seq_length; auto). injection E as <-. lia.
Qed.
Lemma map_decode n (code : sample -> Z) : forall X pred, map_res (fun x => decode (seq 0 n) (code x)) X = Ok pred -> length pred = length X /\
  forall r x t a, nth_error X r = Some x -> nth_error pred r = Some a -> (code x = Z.of_nat t <-> a = t).
Proof.
  induction X as [|x X IH]; intros pred E; cbn [map_res] in E; [injection E as <-; split; auto; destruct r; discriminate|].
  destruct (decode (seq 0 n) (code x)) as [l|] eqn:Ed; [|discriminate]. cbn [bind] in E. destruct (map_res _ X) as [ls|] eqn:El; [|discriminate]. injection E as <-.
  destruct (IH ls eq_refl) as [H1 H2]. split; [cbn; congruence|]. intros [|r] x' t a Ex Ea; cbn in Ex, Ea; [|apply (H2 r); auto].
  injection Ex as <-. injection Ea as <-. rewrite (decode_seq _ _ _ Ed). split; [apply Nat2Z.inj|congruence].
Qed.
Lemma map_decode_err n (code : sample -> Z) X e : map_res (fun x => decode (seq 0 n) (code x)) X = Err e -> e = ValueError.
Proof.
  induction X as [|x X IH]; cbn [map_res]; [discriminate|]. unfold decode at 1. destruct (code x <? 0)%Z; [cbn; congruence|].
  destruct (nth_error (seq 0 n) (Z.to_nat (code x))); [|cbn; congruence]. cbn [bind]. destruct (map_res _ X); [discriminate|]. cbn. intros E. apply IH. congruence.
Qed.

(** Lemmas for property C85. *)
From Coq Require Import String Sorted.
From Verif Require Import Base Lp FitModel SpecFit FitMainProofs BdrModel BdrFitModel TreeModel TreePricingModel TreeFitModel ScriptModel SpecScript PropData LifeModel SpecLife.
Open Scope nat_scope.

Lemma check_array_iff X : check_array X = true <-> tabular X.
Proof.
  unfold tabular. destruct X as [|x X]; cbn [check_array]; [split; [discriminate|intros [H _]; congruence]|].
  rewrite andb_true_iff, negb_true_iff, Nat.eqb_neq, forallb_forall. split.
  - intros [H1 H2]. split; [discriminate|]. exists (length x). split; [destruct x; cbn in *; lia|]. constructor; [reflexivity|]. rewrite Forall_forall. intros r Hr. apply Nat.eqb_eq, H2, Hr.
  - intros [_ (d & Hd & F)]. inversion F as [|? ? Hx F']; subst. rewrite Forall_forall in F'. split; [destruct x; cbn in *; lia|]. intros r Hr. apply Nat.eqb_eq, F', Hr.
Qed.
Lemma check_X_y_iff {L} X (y : list L) : check_X_y X y = true <-> labelled X y.
Proof. unfold check_X_y, labelled. rewrite andb_true_iff, check_array_iff, Nat.eqb_eq. reflexivity. Qed.

Lemma fit_done_fitted {W D C} (E : env W D C) fuel y s u : snd (fit E fuel y s) = Done u -> f_fitted (fst (fit E fuel y s)) = true.
Proof.
  rewrite fit_unfold. destruct (_ <=? 1)%nat; [discriminate|].
  destruct (c_generate_mp E (f_world s)) as [w|e]; [|discriminate].
  destruct (loop E fuel (loop_start E w s)) as [s4 [u'|e|]]; try discriminate.
  unfold finish, mbind. cbn. destruct (rmp_is_ip E); cbn; [|reflexivity].
  unfold call. cbn. destruct (c_solve_ip E (f_world s4)) as [[[] w']|e]; cbn; try discriminate; reflexivity.
Qed.

Section Life.
Context {W D C L : Type}.
Variables (k : kind W D C) (lt : L -> L -> bool) (fuel : nat).
Hypothesis O : strict_order lt.
Notation run := (run k lt fuel). Notation step := (step k lt fuel).

Lemma run_app a : forall o b, run o (a ++ b) = let '(o1, r1) := run o a in let '(o2, r2) := run o1 b in (o2, r1 ++ r2).
Proof.
  induction a as [|c a IH]; intros o b; cbn [LifeModel.run app]; [destruct (run o b); reflexivity|].
  destruct (step o c) as [o1 r]. rewrite IH. destruct (run o1 a) as [o2 r2]. destruct (run o2 b). reflexivity.
Qed.
Lemma run_last o a c : fst (run o (a ++ [c])) = fst (step (fst (run o a)) c) /\ snd (run o (a ++ [c])) = snd (run o a) ++ [snd (step (fst (run o a)) c)].
Proof. rewrite run_app. destruct (run o a) as [o1 r1]. cbn [LifeModel.run fst snd]. destruct (step o1 c). cbn. auto. Qed.

Lemma own_labels y : exists codes, encode lt (label_classes lt y) y = Ok codes /\ coded (label_classes lt y) codes y.
Proof.
  assert (H : exists codes, encode lt (label_classes lt y) y = Ok codes).
  { unfold encode. rewrite map_res_all, Forall_forall. intros v Hv. apply (code_in lt O), (classes_in lt O). exact Hv. }
  destruct H as [codes H]. exists codes. split; [exact H|]. apply (encode_coded lt O). exact H.
Qed.

(** fit on acceptable data. *)
Lemma life_fit_ok X y o : labelled X y -> exists codes, encode lt (label_classes lt y) y = Ok codes /\ coded (label_classes lt y) codes y /\
  let F := fit (k_calls k X codes) fuel (map Z.of_nat codes) (lv_state o) in
  life_fit k lt fuel X y o = (mkLive (match snd F with Raised e => if length (label_classes lt y) <=? 1 then fst F else wrecked (k_wreck k X codes e) (fst F) | _ => fst F end) (Some (label_classes lt y)),
    match snd F with Done _ => Fitted | Raised e => FitRaised e | NoFuel => Running end).
Proof.
  intros H. apply check_X_y_iff in H. destruct (own_labels y) as (codes & E & Hc). exists codes. split; [exact E|]. split; [exact Hc|].
  unfold life_fit. rewrite H, E. destruct (fit _ _ _ _) as [s [u|e|]]; reflexivity.
Qed.
Lemma life_fit_bad X y o : ~ labelled X y -> life_fit k lt fuel X y o = (mkLive (fst (time (k_calls k [] []) (lv_state o))) (lv_classes o), FitRaised ValueError).
Proof. intros H. unfold life_fit. destruct (check_X_y X y) eqn:E; [apply check_X_y_iff in E; contradiction|reflexivity]. Qed.
Lemma labelled_dec X (y : list L) : labelled X y \/ ~ labelled X y.
Proof. destruct (check_X_y X y) eqn:E; [left; apply check_X_y_iff; exact E|right; rewrite <- check_X_y_iff, E; discriminate]. Qed.

Lemma step_fitted o c : f_fitted (lv_state (fst (step o c))) = true <-> f_fitted (lv_state o) = true \/ snd (step o c) = Fitted.
Proof.
  destruct c as [X y|X]; cbn [LifeModel.step].
  - destruct (labelled_dec X y) as [H|H].
    + destruct (life_fit_ok X y o H) as (codes & _ & _ & ->). cbn [fst snd lv_state].
      set (F := fit _ _ _ _).
      destruct (snd F) as [u|e|] eqn:E.
      * pose proof (fit_done_fitted _ _ _ _ _ E) as G. fold F in G. rewrite G. intuition.
      * assert (G : f_fitted (fst F) = f_fitted (lv_state o)) by (apply fit_not_fitted; fold F; rewrite E; discriminate).
        destruct (_ <=? 1); cbn [wrecked f_fitted]; rewrite G; intuition discriminate.
      * assert (G : f_fitted (fst F) = f_fitted (lv_state o)) by (apply fit_not_fitted; fold F; rewrite E; discriminate). rewrite G. intuition discriminate.
    + rewrite life_fit_bad by exact H. cbn. intuition discriminate.
  - cbn [fst snd]. unfold life_predict. destruct (check_array X); [|intuition discriminate]. destruct (f_fitted (lv_state o)); [intuition|].
    intuition discriminate.
Qed.
Lemma run_fitted cs : forall o, f_fitted (lv_state (fst (run o cs))) = true <-> f_fitted (lv_state o) = true \/ In Fitted (snd (run o cs)).
Proof.
  induction cs as [|c cs IH]; intros o; cbn [LifeModel.run]; [cbn; intuition|]. pose proof (step_fitted o c) as S1.
  destruct (step o c) as [o1 r]. specialize (IH o1). destruct (run o1 cs) as [o2 rs]. cbn [fst snd] in *. rewrite IH, S1. cbn [In]. intuition.
Qed.

Lemma run_predicts cs : forall o, fst (run o cs) = fst (run o (filter is_fit cs)).
Proof.
  induction cs as [|c cs IH]; intros o; [reflexivity|]. cbn [filter LifeModel.run]. destruct c as [X y|X]; cbn [is_fit].
  - cbn [LifeModel.run LifeModel.step]. destruct (life_fit k lt fuel X y o) as [o1 r]. specialize (IH o1). destruct (run o1 cs), (run o1 (filter is_fit cs)). exact IH.
  - cbn [LifeModel.step]. specialize (IH o). destruct (run o cs). exact IH.
Qed.

(** The label encoder belongs to the last acceptable data. *)
Lemma run_classes cs : forall o,
  (exists X y, latest cs X y /\ lv_classes (fst (run o cs)) = Some (label_classes lt y)) \/
  ((forall X y, In (Fit X y) cs -> ~ labelled X y) /\ lv_classes (fst (run o cs)) = lv_classes o).
Proof.
  induction cs as [|c cs IH] using rev_ind; intros o; [right; split; [intros X y []|reflexivity]|].
  destruct (run_last o cs c) as [-> _]. destruct c as [X y|X]; cbn [LifeModel.step].
  - destruct (labelled_dec X y) as [H|H].
    + left. exists X, y. split; [exists cs, []; split; [reflexivity|]; split; [exact H|intros X' y' []]|].
      destruct (life_fit_ok X y (fst (run o cs)) H) as (codes & _ & _ & ->). reflexivity.
    + rewrite life_fit_bad by exact H. cbn [fst lv_classes]. destruct (IH o) as [(X0 & y0 & (b & a & -> & H1 & H2) & H3)|[H1 H2]].
      * left. exists X0, y0. split; [|exact H3]. exists b, (a ++ [Fit X y]). split; [rewrite <- app_assoc; reflexivity|]. split; [exact H1|].
        intros X' y' Hi. apply in_app_or in Hi. destruct Hi as [Hi|[Hi|[]]]; [apply H2, Hi|]. injection Hi as <- <-. exact H.
      * right. split; [|exact H2]. intros X' y' Hi. apply in_app_or in Hi. destruct Hi as [Hi|[Hi|[]]]; [apply H1, Hi|]. injection Hi as <- <-. exact H.
  - cbn [fst]. destruct (IH o) as [(X0 & y0 & (b & a & -> & H1 & H2) & H3)|[H1 H2]].
    + left. exists X0, y0. split; [|exact H3]. exists b, (a ++ [Predict X]). split; [rewrite <- app_assoc; reflexivity|]. split; [exact H1|].
      intros X' y' Hi. apply in_app_or in Hi. destruct Hi as [Hi|[Hi|[]]]; [apply H2, Hi|discriminate Hi].
    + right. split; [|exact H2]. intros X' y' Hi. apply in_app_or in Hi. destruct Hi as [Hi|[Hi|[]]]; [apply H1, Hi|discriminate Hi].
Qed.
Lemma latest_unique (cs : list (op L)) X y X' y' : latest cs X y -> latest cs X' y' -> X = X' /\ y = y'.
Proof.
  intros (b & a & E & H1 & H2) (b' & a' & E' & H1' & H2'). subst cs.
  revert b' E'. induction b as [|c b IH]; intros [|c' b'] E'; cbn [app] in E'.
  - injection E' as <- <- _. auto.
  - injection E' as E1 E2. exfalso. apply (H2 X' y'); [|exact H1']. rewrite E2. apply in_or_app. right. left. reflexivity.
  - injection E' as E1 E2. exfalso. apply (H2' X y); [|exact H1]. rewrite <- E2. apply in_or_app. right. left. reflexivity.
  - injection E' as _ E'. apply (IH b' E').
Qed.

Lemma decode_in (classes : list L) c v : decode classes c = Ok v -> In v classes.
Proof. unfold decode. destruct (c <? 0)%Z; [discriminate|]. destruct (nth_error classes (Z.to_nat c)) eqn:E; [|discriminate]. intros H. injection H as <-. eapply nth_error_In. exact E. Qed.
Lemma decode_err (classes : list L) c e : decode classes c = Err e -> e = ValueError.
Proof. unfold decode. destruct (c <? 0)%Z; [congruence|]. destruct (nth_error classes (Z.to_nat c)); [discriminate|congruence]. Qed.
End Life.

(** Renaming. *)
Lemma classes_renamed {L L'} (lt : L -> L -> bool) (lt' : L' -> L' -> bool) (f : L -> L') y :
  (forall a b, In a y -> In b y -> lt' (f a) (f b) = lt a b) -> label_classes lt' (map f y) = map f (label_classes lt y).
Proof.
  intros H.
  assert (N : forall v l w, In w (insert_label lt v l) -> w = v \/ In w l).
  { intros v l. induction l as [|u l IH]; intros w; cbn [insert_label]; [cbn; intuition|]. destruct (lt v u); [cbn; intuition|]. destruct (lt u v); [|cbn; intuition]. cbn [In]. intros [->|Hw]; auto. apply IH in Hw. intuition. }
  assert (I : forall v l, In v y -> incl l y -> insert_label lt' (f v) (map f l) = map f (insert_label lt v l)).
  { intros v l Hv. induction l as [|u l IH]; intros Hl; [reflexivity|]. cbn [map insert_label]. rewrite !H; auto; [|apply Hl; left; reflexivity..]. destruct (lt v u); [reflexivity|].
    destruct (lt u v); [|reflexivity]. cbn [map]. f_equal. apply IH. intros x Hx. apply Hl. right. exact Hx. }
  assert (C : forall ys, incl ys y -> label_classes lt' (map f ys) = map f (label_classes lt ys) /\ incl (label_classes lt ys) ys).
  { induction ys as [|v ys IH]; intros Hy; [split; [reflexivity|intros x []]|]. destruct IH as [I1 I2]; [intros x Hx; apply Hy; right; exact Hx|]. unfold label_classes in *. cbn [map fold_right]. rewrite I1. split.
    - apply I; [apply Hy; left; reflexivity|]. intros x Hx. apply Hy. right. apply I2. exact Hx.
    - intros x Hx. apply N in Hx. destruct Hx as [->|Hx]; [left; reflexivity|right; auto]. }
  apply (C y). intros x Hx. exact Hx.
Qed.
Lemma decode_renamed {L L'} (f : L -> L') classes c : decode (map f classes) c = match decode classes c with Ok v => Ok (f v) | Err e => Err e end.
Proof. unfold decode. destruct (c <? 0)%Z; [reflexivity|]. rewrite nth_error_map. destruct (nth_error classes (Z.to_nat c)); reflexivity. Qed.
Lemma decodes_renamed {L L'} (f : L -> L') classes codes : map_res (decode (map f classes)) codes = match map_res (decode classes) codes with Ok v => Ok (map f v) | Err e => Err e end.
Proof. induction codes as [|c codes IH]; [reflexivity|]. cbn [map_res]. rewrite decode_renamed, IH. destruct (decode classes c); [|reflexivity]. cbn [bind]. destruct (map_res (decode classes) codes); reflexivity. Qed.

Definition rename_live {W D C L L'} (f : L -> L') (o : live W D C L) : live W D C L' := mkLive (lv_state o) (option_map (map f) (lv_classes o)).
Lemma run_renamed {W D C L L'} (k : kind W D C) (lt : L -> L -> bool) (lt' : L' -> L' -> bool) (f : L -> L') fuel : forall cs o,
  (forall a b, In a (concat (map op_labels cs)) -> In b (concat (map op_labels cs)) -> lt' (f a) (f b) = lt a b) ->
  run k lt' fuel (rename_live f o) (map (rename_op f) cs) = (rename_live f (fst (run k lt fuel o cs)), map (rename_reply f) (snd (run k lt fuel o cs))).
Proof.
  induction cs as [|c cs IH]; intros o H; [reflexivity|]. cbn [map run concat] in *.
  assert (S1 : step k lt' fuel (rename_live f o) (rename_op f c) = (rename_live f (fst (step k lt fuel o c)), rename_reply f (snd (step k lt fuel o c)))).
  { destruct c as [X y|X]; cbn [rename_op step op_labels] in *.
    - assert (Hy : forall a b, In a y -> In b y -> lt' (f a) (f b) = lt a b) by (intros a b Ha Hb; apply H; apply in_or_app; auto).
      unfold life_fit. assert (E : check_X_y X (map f y) = check_X_y X y) by (unfold check_X_y; rewrite map_length; reflexivity). rewrite E.
      destruct (check_X_y X y); [|reflexivity].
      rewrite (C81_renaming _ _ lt lt' f y y) by (intros a b Ha Hb; apply Hy; apply in_app_or in Ha; apply in_app_or in Hb; intuition).
      rewrite (classes_renamed lt lt' f y Hy). destruct (encode lt (label_classes lt y) y) as [codes|e]; [|reflexivity].
      cbn [rename_live lv_state]. destruct (fit (k_calls k X codes) fuel (map Z.of_nat codes) (lv_state o)) as [s [u|e|]]; [reflexivity| |reflexivity]. rewrite map_length. reflexivity.
    - unfold life_predict. cbn [rename_live lv_state lv_classes]. cbn [fst snd]. f_equal. destruct (check_array X); [|reflexivity]. destruct (f_fitted (lv_state o)); [|reflexivity].
      destruct (k_codes k (f_world (lv_state o)) X) as [codes|e]; [|reflexivity]. destruct (lv_classes o) as [cl|]; [|reflexivity]. cbn [option_map]. rewrite decodes_renamed.
      destruct (map_res (decode cl) codes); reflexivity. }
  rewrite S1. destruct (step k lt fuel o c) as [o1 r]. cbn [fst snd]. rewrite IH by (intros a b Ha Hb; apply H; apply in_or_app; auto).
  destruct (run k lt fuel o1 cs) as [o2 rs]. reflexivity.
Qed.

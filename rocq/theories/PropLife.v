(** Property C85: any sequence of calls of fit and predict on one estimator. *)
From Coq Require Import String Sorted.
From Verif Require Import Base Lp LpProofs FitModel SpecFit FitMainProofs SpecDual BdrModel SpecBdr BdrProofs BdrLpProofs BdrPricingProofs BdrSubmipProofs BdrRuleProofs BdrFitModel BdrRunProofs BdrCertProofs
  LpCheck BdrWitness PropFit PropBdrRun TreeModel TreePricingModel TreeFitModel SpecTree SpecTreeLp SpecTreeRun SpecTreePrice SpecTreeMip SpecTreeFit SpecTreeTrain SpecTreeResult
  PropTreeFit PropTreeTrain ScriptModel SpecScript PropData LifeModel SpecLife LifeProofs.
Open Scope nat_scope.

(** predict raises NotFittedError exactly if no earlier call of fit returned and its argument is a table; an argument that is not a table is a
    ValueError.  Whatever was called before: a fit that raised does not make the estimator fitted, and does not make it unfitted. *)
Theorem C85_not_fitted : forall W D C L (k : kind W D C) (lt : L -> L -> bool) fuel w cs X, strict_order lt ->
  (reply_to k lt fuel w cs (Predict X) = NotFitted <-> tabular X /\ ~ In Fitted (replies k lt fuel w cs)) /\
  (~ tabular X -> reply_to k lt fuel w cs (Predict X) = PredictRaised ValueError).
Proof.
  intros W D C L k lt fuel w cs X O. pose proof (run_fitted k lt fuel O cs (fresh w)) as RF. unfold reply_to, replies, object_after. cbn [step snd].
  unfold life_predict. pose proof (check_array_iff X) as CA. split.
  - destruct (check_array X).
    + destruct (f_fitted (lv_state (fst (run k lt fuel (fresh w) cs)))) eqn:E.
      * split; [|intros [_ H]; exfalso; apply H; destruct (proj1 RF eq_refl) as [H'|H']; [discriminate H'|exact H']].
        destruct (k_codes _ _ _) as [codes|]; [|discriminate]. destruct (lv_classes _) as [cl|]; [|discriminate]. destruct (map_res _ _); discriminate.
      * split; [|reflexivity]. intros _. split; [apply CA; reflexivity|]. intros H. discriminate (proj2 RF (or_intror H)).
    + split; [discriminate|]. intros [H _]. apply CA in H. discriminate H.
  - intros H. destruct (check_array X); [exfalso; apply H, CA; reflexivity|reflexivity].
Qed.
Print Assumptions C85_not_fitted.

(** predict changes nothing: leaving out calls of predict changes neither the object nor, hence, any reply to another call. *)
Theorem C85_predict_harmless : forall W D C L (k : kind W D C) (lt : L -> L -> bool) fuel w cs,
  object_after k lt fuel w cs = object_after k lt fuel w (filter is_fit cs) /\
  forall c, reply_to k lt fuel w cs c = reply_to k lt fuel w (filter is_fit cs) c.
Proof.
  intros W D C L k lt fuel w cs. assert (E : object_after k lt fuel w cs = object_after k lt fuel w (filter is_fit cs)) by apply run_predicts.
  split; [exact E|]. intros c. unfold reply_to. rewrite E. reflexivity.
Qed.
Print Assumptions C85_predict_harmless.

(** Data that are no table, or do not have one label per row, are rejected with ValueError, and no later prediction changes. *)
Theorem C85_rejected_data : forall W D C L (k : kind W D C) (lt : L -> L -> bool) fuel w cs X y, ~ labelled X y ->
  reply_to k lt fuel w cs (Fit X y) = FitRaised ValueError /\
  forall X', reply_to k lt fuel w (cs ++ [Fit X y]) (Predict X') = reply_to k lt fuel w cs (Predict X').
Proof.
  intros W D C L k lt fuel w cs X y H. unfold reply_to, object_after. split.
  - cbn [step]. rewrite life_fit_bad by exact H. reflexivity.
  - intros X'. destruct (run_last k lt fuel (fresh w) cs (Fit X y)) as [-> _]. cbn [step]. rewrite life_fit_bad by exact H. reflexivity.
Qed.
Print Assumptions C85_rejected_data.

Lemma predict_labels {W D C L} (k : kind W D C) (lt : L -> L -> bool) fuel w cs X ls : strict_order lt -> reply_to k lt fuel w cs (Predict X) = Labels ls ->
  tabular X /\ f_fitted (lv_state (object_after k lt fuel w cs)) = true /\ exists X0 y0 codes, latest cs X0 y0 /\ lv_classes (object_after k lt fuel w cs) = Some (label_classes lt y0) /\
    k_codes k (f_world (lv_state (object_after k lt fuel w cs))) X = Ok codes /\ Forall2 (fun c v => decode (label_classes lt y0) c = Ok v) codes ls.
Proof.
  intros O. unfold reply_to. cbn [step snd]. unfold life_predict. destruct (check_array X) eqn:EC; [|discriminate]. apply check_array_iff in EC.
  destruct (f_fitted _) eqn:EF; [|discriminate]. destruct (k_codes k _ X) as [codes|] eqn:EK; [|discriminate].
  destruct (lv_classes (object_after k lt fuel w cs)) as [cl|] eqn:EL; [|discriminate]. destruct (map_res (decode cl) codes) as [ls'|] eqn:EM; [|discriminate].
  intros H. injection H as ->. split; [exact EC|]. split; [reflexivity|]. unfold object_after in EL.
  destruct (run_classes k lt fuel O cs (fresh w)) as [(X0 & y0 & H1 & H2)|[_ H2]]; rewrite EL in H2; [|discriminate H2]. injection H2 as ->.
  exists X0, y0, codes. split; [exact H1|]. split; [reflexivity|]. split; [reflexivity|]. apply map_res_F2. exact EM.
Qed.
Lemma F2_In_r {A B} (R : A -> B -> Prop) l l' b : Forall2 R l l' -> In b l' -> exists a, In a l /\ R a b.
Proof. induction 1 as [|a b' l l' H _ IH]; intros []; [subst; exists a; cbn; auto|]. destruct IH as (a' & ? & ?); auto. exists a'. cbn; auto. Qed.
Lemma F2_In_l {A B} (R : A -> B -> Prop) l l' a : Forall2 R l l' -> In a l -> exists b, In b l' /\ R a b.
Proof. induction 1 as [|a' b' l l' H _ IH]; intros []; [subst; exists b'; cbn; auto|]. destruct IH as (b & ? & ?); auto. exists b. cbn; auto. Qed.
Lemma F2_len {A B} (R : A -> B -> Prop) l l' : Forall2 R l l' -> length l = length l'.
Proof. induction 1; cbn; congruence. Qed.

(** Every predicted label is a label of the data of the last call of fit that accepted its data, whether or not that call returned. *)
Theorem C85_labels : forall W D C L (k : kind W D C) (lt : L -> L -> bool) fuel w cs X ls, strict_order lt ->
  reply_to k lt fuel w cs (Predict X) = Labels ls -> exists X0 y0, latest cs X0 y0 /\ incl ls y0.
Proof.
  intros W D C L k lt fuel w cs X ls O H. destruct (predict_labels k lt fuel w cs X ls O H) as (_ & _ & X0 & y0 & codes & H1 & _ & _ & F).
  exists X0, y0. split; [exact H1|]. intros v Hv. destruct (F2_In_r _ _ _ _ F Hv) as (c & _ & Hc). apply decode_in in Hc. apply (classes_in lt O). exact Hc.
Qed.
Print Assumptions C85_labels.

(** The labels matter only by their order: renaming them in all calls, in an order-preserving way, renames them in all replies. *)
Theorem C85_renaming : forall W D C L L' (k : kind W D C) (lt : L -> L -> bool) (lt' : L' -> L' -> bool) (f : L -> L') fuel w cs,
  (forall a b, In a (concat (map op_labels cs)) -> In b (concat (map op_labels cs)) -> lt' (f a) (f b) = lt a b) ->
  replies k lt' fuel w (map (rename_op f) cs) = map (rename_reply f) (replies k lt fuel w cs).
Proof. intros W D C L L' k lt lt' f fuel w cs H. unfold replies. change (@fresh W D C L' w) with (rename_live f (@fresh W D C L w)). rewrite (run_renamed k lt lt' f fuel cs (fresh w) H). reflexivity. Qed.
Print Assumptions C85_renaming.

Section Order.
Context {L : Type} (lt : L -> L -> bool) (O : strict_order lt).
Lemma code_smallest y c v : nth_error (label_classes lt y) c = Some v -> (smallest lt y v <-> c = 0).
Proof.
  intros E. assert (I : SpecScript.increasing lt (label_classes lt y)) by (apply sorted_increasing; auto; apply classes_sorted; auto).
  assert (M : In v y) by (apply (classes_in lt O); eapply nth_error_In; exact E). split.
  - intros [_ H]. destruct c as [|c]; [reflexivity|]. exfalso. destruct (nth_error (label_classes lt y) 0) as [a|] eqn:Ea.
    + assert (Ha : In a y) by (apply (classes_in lt O); eapply nth_error_In; exact Ea). specialize (H a Ha). rewrite (proj1 (I 0 (S c) a v Ea E)) in H by lia. discriminate H.
    + apply nth_error_None in Ea. assert (S c < length (label_classes lt y)) by (apply nth_error_Some; congruence). lia.
  - intros ->. split; [exact M|]. intros u Hu. apply (classes_in lt O), In_nth_error in Hu. destruct Hu as [j Hj]. destruct (lt u v) eqn:Eq; [|reflexivity].
    apply (I j 0 u v Hj E) in Eq. lia.
Qed.
Lemma code_second y v : nth_error (label_classes lt y) 1 = Some v -> next_smallest lt y v.
Proof.
  intros E. assert (I : SpecScript.increasing lt (label_classes lt y)) by (apply sorted_increasing; auto; apply classes_sorted; auto).
  destruct (nth_error (label_classes lt y) 0) as [u|] eqn:Eu; [|apply nth_error_None in Eu; assert (1 < length (label_classes lt y)) by (apply nth_error_Some; congruence); lia].
  exists u. split; [apply (code_smallest y 0 u Eu); reflexivity|]. split; [intros ->; pose proof (proj1 (I 0 1 u u Eu E) (Nat.lt_0_1)) as H; rewrite (so_irrefl lt O) in H; discriminate H|].
  split; [apply (classes_in lt O); eapply nth_error_In; exact E|]. intros a Ha Hau. apply (classes_in lt O), In_nth_error in Ha. destruct Ha as [j Hj]. destruct (lt a v) eqn:Eq; [|reflexivity].
  apply (I j 1 a v Hj E) in Eq. assert (j = 0) by lia. subst j. congruence.
Qed.
Lemma one_class y v : In v y -> (forall u, In u y -> u = v) -> label_classes lt y = [v].
Proof.
  intros Hv H. assert (A : forall u, In u (label_classes lt y) -> u = v) by (intros u Hu; apply H, (classes_in lt O), Hu).
  assert (I : SpecScript.increasing lt (label_classes lt y)) by (apply sorted_increasing; auto; apply classes_sorted; auto).
  apply (classes_in lt O) in Hv. destruct (label_classes lt y) as [|a [|b l]]; [destruct Hv|rewrite (A a (or_introl eq_refl)); reflexivity|].
  exfalso. pose proof (A a (or_introl eq_refl)). pose proof (A b (or_intror (or_introl eq_refl))). subst. pose proof (proj1 (I 0 1 v v eq_refl eq_refl) Nat.lt_0_1) as G. rewrite (so_irrefl lt O) in G. discriminate G.
Qed.
End Order.

(** A call of fit with a single label raises ValueError, but its label replaces the classes of an estimator that was fitted before: later
    predictions give that label where they gave the smallest of the former labels; if any other label occurred the prediction raises
    ValueError. *)
Theorem C85_single_label : forall W D C L (k : kind W D C) (lt : L -> L -> bool) fuel w cs X0 y0 X1 y1 v, strict_order lt ->
  latest cs X0 y0 -> labelled X1 y1 -> (forall u, In u y1 -> u = v) ->
  reply_to k lt fuel w cs (Fit X1 y1) = FitRaised ValueError /\
  forall X ls, reply_to k lt fuel w cs (Predict X) = Labels ls ->
    ((forall u, In u ls -> smallest lt y0 u) -> reply_to k lt fuel w (cs ++ [Fit X1 y1]) (Predict X) = Labels (map (fun _ => v) ls)) /\
    ((exists u, In u ls /\ ~ smallest lt y0 u) -> reply_to k lt fuel w (cs ++ [Fit X1 y1]) (Predict X) = PredictRaised ValueError).
Proof.
  intros W D C L k lt fuel w cs X0 y0 X1 y1 v O HL HD HV.
  assert (Hin : In v y1). { destruct HD as [[Hn _] Hl]. destruct y1 as [|u y1]; [destruct X1; [congruence|discriminate Hl]|]. left. exact (HV u (or_introl eq_refl)). }
  pose proof (one_class lt O y1 v Hin HV) as E1.
  set (o := object_after k lt fuel w cs).
  destruct (life_fit_ok k lt fuel O X1 y1 o HD) as (codes & EC & Hc & EF). rewrite E1 in *.
  assert (D1 : (distinct_labels (map Z.of_nat codes) <= 1)%nat).
  { assert (G : forall c, In c codes -> c = 0). { intros c Hc'. apply In_nth_error in Hc'. destruct Hc' as [i Hi]. unfold coded in Hc. clear - Hc Hi. revert i Hi. induction Hc as [|c' u l l' H _ IH]; intros [|i] Hi; try discriminate Hi.
      - injection Hi as ->. destruct c as [|c]; [reflexivity|]. destruct c; discriminate H. - apply (IH i Hi). }
    apply (one_label_nodup (map Z.of_nat codes)). intros a b Ha Hb. apply in_map_iff in Ha, Hb. destruct Ha as (a' & <- & Ha), Hb as (b' & <- & Hb). rewrite (G a' Ha), (G b' Hb). reflexivity. }
  destruct (fit_single_class (k_calls k X1 codes) fuel (map Z.of_nat codes) (lv_state o) D1) as (s' & EQ & _ & EW & EFt). rewrite EQ in EF. cbn [fst snd] in EF.
  split; [unfold reply_to; fold o; cbn [step]; rewrite EF; reflexivity|].
  intros X ls HP. pose proof (predict_labels k lt fuel w cs X ls O HP) as (HT & Hf & X' & y' & zs & HL' & HC & HK & F). fold o in Hf, HC, HK.
  destruct (latest_unique cs X0 y0 X' y' HL HL') as [<- <-].
  assert (A : object_after k lt fuel w (cs ++ [Fit X1 y1]) = mkLive s' (Some [v])).
  { unfold object_after. destruct (run_last k lt fuel (fresh w) cs (Fit X1 y1)) as [-> _]. change (fst (run k lt fuel (fresh w) cs)) with o. cbn [step]. rewrite EF. reflexivity. }
  assert (B : reply_to k lt fuel w (cs ++ [Fit X1 y1]) (Predict X) = match map_res (decode [v]) zs with Ok l => Labels l | Err e => PredictRaised e end).
  { unfold reply_to. rewrite A. cbn [step snd]. unfold life_predict. cbn [lv_state lv_classes]. apply check_array_iff in HT. rewrite HT, EFt, Hf, EW, HK. reflexivity. }
  rewrite B. clear - O F. split.
  - intros H. assert (G : map_res (decode [v]) zs = Ok (map (fun _ => v) ls)); [|rewrite G; reflexivity].
    induction F as [|c u zs ls Hcu _ IH]; [reflexivity|]. cbn [map_res map]. rewrite IH by (intros; apply H; right; assumption). unfold decode in Hcu |- *.
    destruct (c <? 0)%Z; [discriminate|]. destruct (nth_error (label_classes lt y0) (Z.to_nat c)) as [u'|] eqn:E; [|discriminate]. injection Hcu as ->.
    rewrite (proj1 (code_smallest lt O y0 _ u E) (H u (or_introl eq_refl))). reflexivity.
  - intros (u & Hu & Hn). destruct (map_res (decode [v]) zs) as [l|e] eqn:E; [|rewrite (map_res_only (decode [v]) ValueError zs (fun a e0 _ H => decode_err [v] a e0 H) e E); reflexivity].
    exfalso. apply map_res_F2 in E. destruct (F2_In_r _ _ _ _ F Hu) as (c & Hc & Hd). destruct (F2_In_l _ _ _ _ E Hc) as (l' & _ & Hd').
    apply Hn. unfold decode in Hd, Hd'. destruct (c <? 0)%Z; [discriminate|]. destruct (nth_error (label_classes lt y0) (Z.to_nat c)) as [u'|] eqn:E'; [|discriminate]. injection Hd as ->.
    apply (code_smallest lt O y0 _ u E'). destruct (Z.to_nat c) as [|[|n]]; [reflexivity|discriminate Hd'..].
Qed.
Print Assumptions C85_single_label.

(** * The two classifiers *)

(** predict of the model of C19 and of C45 is predict here. *)
Theorem C85_same_predict : forall L (lt : L -> L -> bool) fuel,
  (forall sv P clk wreck w cs X ls, let k := bdr_kind sv P clk wreck in let o := object_after k lt fuel w cs in
     reply_to k lt fuel w cs (Predict X) = Labels ls <->
     tabular X /\ f_fitted (lv_state o) = true /\ exists rule classes, learned (lv_state o) = Some rule /\ lv_classes o = Some classes /\ BdrModel.predict classes rule X = Ok ls) /\
  (forall sv A clk wreck w cs X ls, let k := tree_kind sv A clk wreck in let o := object_after k lt fuel w cs in
     reply_to k lt fuel w cs (Predict X) = Labels ls <->
     tabular X /\ f_fitted (lv_state o) = true /\ exists classes, lv_classes o = Some classes /\ tree_predict A classes (lv_state o) X = Ok ls).
Proof.
  intros L lt fuel. split.
  - intros sv P clk wreck w cs X ls k o. unfold reply_to. fold o. cbn [step snd]. unfold life_predict. rewrite <- check_array_iff.
    destruct (check_array X); [|intuition discriminate]. destruct (f_fitted (lv_state o)); [|intuition discriminate].
    unfold k at 1. cbn [bdr_kind k_codes]. fold (learned (lv_state o)). destruct (learned (lv_state o)) as [rule|]; [|split; [discriminate|intros (_ & _ & r & c & H & _); discriminate H]].
    assert (G : forall (classes : list L), BdrModel.predict classes rule X = (let* zs := map_res (fun row => let* c := any_clause row rule in Ok (Z.of_nat c)) X in map_res (decode classes) zs)).
    { intros classes. unfold BdrModel.predict. assert (G1 : map_res (fun row => let* c := any_clause row rule in Ok (Z.of_nat c)) X = let* cs := map_res (fun row => any_clause row rule) X in Ok (map Z.of_nat cs)).
      { induction X as [|x X' IH]; [reflexivity|]. cbn [map_res]. rewrite IH. destruct (any_clause x rule); [|reflexivity]. cbn [bind]. destruct (map_res (fun row => any_clause row rule) X'); reflexivity. }
      rewrite G1. clear G1. destruct (map_res (fun row => any_clause row rule) X) as [ns|]; [|reflexivity]. cbn [bind]. induction ns as [|n ns IH]; [reflexivity|]. cbn [map map_res]. rewrite IH.
      assert (DE : decode classes (Z.of_nat n) = match nth_error classes n with Some l => Ok l | None => Err ValueError end); [|rewrite DE; reflexivity].
      unfold decode. replace (Z.of_nat n <? 0)%Z with false by (symmetry; apply Z.ltb_ge; lia). rewrite Nat2Z.id. reflexivity. }
    destruct (map_res (fun row => let* c := any_clause row rule in Ok (Z.of_nat c)) X) as [zs|].
    + destruct (lv_classes o) as [cl|]; [|split; [discriminate|intros (_ & _ & r & c & _ & H & _); discriminate H]]. cbn [bind] in G. split.
      * intros H. split; [reflexivity|]. split; [reflexivity|]. exists rule, cl. split; [reflexivity|]. split; [reflexivity|]. rewrite G. destruct (map_res (decode cl) zs); [injection H as ->; reflexivity|discriminate H].
      * intros (_ & _ & r & c & Hr & Hc & H). injection Hr as <-. injection Hc as <-. rewrite G in H. rewrite H. reflexivity.
    + split; [discriminate|]. intros (_ & _ & r & c & Hr & Hc & H). injection Hr as <-. rewrite G in H. discriminate H.
  - intros sv A clk wreck w cs X ls k o. unfold reply_to. fold o. cbn [step snd]. unfold life_predict. rewrite <- check_array_iff.
    destruct (check_array X); [|intuition discriminate]. destruct (f_fitted (lv_state o)); [|intuition discriminate].
    unfold k at 1. cbn [tree_kind k_codes]. unfold tree_predict, predict. destruct (tm_selected (tw_master (f_world (lv_state o)))) as [sel|]; [|split; [discriminate|intros (_ & _ & c & _ & H); discriminate H]].
    destruct (map_res (fun x => predict_code x (ta_leaves A) (tm_splits (tw_master (f_world (lv_state o)))) sel) X) as [zs|].
    + cbn [bind]. destruct (lv_classes o) as [cl|]; [|split; [discriminate|intros (_ & _ & c & H & _); discriminate H]]. split.
      * intros H. split; [reflexivity|]. split; [reflexivity|]. exists cl. split; [reflexivity|]. destruct (map_res (decode cl) zs); [injection H as ->; reflexivity|discriminate H].
      * intros (_ & _ & c & Hc & H). injection Hc as <-. rewrite H. reflexivity.
    + split; [discriminate|]. intros (_ & _ & c & Hc & H). discriminate H.
Qed.
Print Assumptions C85_same_predict.

(** Each row is predicted on its own. *)
Lemma rows_alone {W D C L} (k : kind W D C) (one : W -> sample -> res Z) (lt : L -> L -> bool) fuel w cs X ls :
  (forall w X, X <> [] -> forall codes, k_codes k w X = Ok codes <-> Forall2 (fun x c => one w x = Ok c) X codes) -> strict_order lt ->
  reply_to k lt fuel w cs (Predict X) = Labels ls <-> tabular X /\ Forall2 (fun x v => reply_to k lt fuel w cs (Predict [x]) = Labels [v]) X ls.
Proof.
  intros HK O. assert (R : forall X ls, reply_to k lt fuel w cs (Predict X) = Labels ls <-> tabular X /\ f_fitted (lv_state (object_after k lt fuel w cs)) = true /\
    exists cl codes, lv_classes (object_after k lt fuel w cs) = Some cl /\ Forall2 (fun x c => one (f_world (lv_state (object_after k lt fuel w cs))) x = Ok c) X codes /\ Forall2 (fun c v => decode cl c = Ok v) codes ls).
  { intros Y l. unfold reply_to. set (o := object_after k lt fuel w cs). cbn [step snd]. unfold life_predict. rewrite <- check_array_iff. destruct (check_array Y) eqn:EC; [|intuition discriminate].
    apply check_array_iff in EC. destruct EC as [EC _]. destruct (f_fitted (lv_state o)); [|intuition discriminate]. specialize (HK (f_world (lv_state o)) Y EC).
    destruct (k_codes k (f_world (lv_state o)) Y) as [codes|e].
    - assert (F : Forall2 (fun x c => one (f_world (lv_state o)) x = Ok c) Y codes) by (apply HK; reflexivity).
      destruct (lv_classes o) as [cl|]; [|split; [discriminate|intros (_ & _ & c & ? & H & _); discriminate H]]. split.
      + destruct (map_res (decode cl) codes) as [l'|] eqn:E; [|discriminate]. intros H. injection H as ->. apply map_res_F2 in E. split; [reflexivity|]. split; [reflexivity|]. exists cl, codes. auto.
      + intros (_ & _ & cl' & codes' & H1 & H2 & H3). injection H1 as <-. apply HK in H2. injection H2 as <-. apply map_res_F2 in H3. rewrite H3. reflexivity.
    - split; [discriminate|]. intros (_ & _ & cl & codes & _ & H & _). apply HK in H. discriminate H. }
  rewrite R. split.
  - intros (HT & Hf & cl & codes & Hc & F1 & F2). split; [exact HT|]. destruct HT as [_ (d & Hd & Hr)]. revert ls F2. revert Hr. induction F1 as [|x c X codes H1 _ IH]; intros Hr ls F2; inversion F2; subst; constructor.
    + apply R. inversion Hr; subst. split; [split; [discriminate|exists (length x); auto]|]. split; [exact Hf|]. exists cl, [c]. auto.
    + apply IH; [inversion Hr; assumption|assumption].
  - intros (HT & F). split; [exact HT|]. destruct HT as [Hn _]. revert Hn. destruct F as [|x v X ls H F]; intros Hn; [exfalso; apply Hn; reflexivity|]. apply R in H. destruct H as (_ & Hf & cl & codes & Hc & F1 & F2). split; [exact Hf|]. exists cl.
    inversion F1 as [|? c ? ? H1 F1']; subst. inversion F1'; subst. inversion F2 as [|? ? ? ? H2 F2']; subst.
    assert (G : exists codes, Forall2 (fun x c => one (f_world (lv_state (object_after k lt fuel w cs))) x = Ok c) X codes /\ Forall2 (fun c v => decode cl c = Ok v) codes ls).
    { clear - F Hc R. induction F as [|x v X ls H _ IH]; [exists []; auto|]. destruct IH as (codes & G1 & G2). apply R in H. destruct H as (_ & _ & cl' & cs' & Hc' & F1 & F2). rewrite Hc in Hc'. injection Hc' as <-.
      inversion F1 as [|? c ? ? H1 F1']; subst. inversion F1'; subst. inversion F2 as [|? ? ? ? H2 F2']; subst. exists (c :: codes). auto. }
    destruct G as (codes' & G1 & G2). exists (c :: codes'). auto.
Qed.
Lemma bdr_rows sv P clk wreck w X : X <> [] -> forall codes, k_codes (bdr_kind sv P clk wreck) w X = Ok codes <->
  Forall2 (fun x c => match bm_explanation (bw_master w) with None => Err AttributeError | Some e => let* c := any_clause x e in Ok (Z.of_nat c) end = Ok c) X codes.
Proof.
  intros Hn codes. cbn [bdr_kind k_codes]. destruct (bm_explanation (bw_master w)) as [e|]; [apply map_res_F2|].
  split; [discriminate|]. intros F. destruct X as [|x X]; [congruence|]. inversion F; discriminate.
Qed.
Lemma tree_rows sv A clk wreck w X : X <> [] -> forall codes, k_codes (tree_kind sv A clk wreck) w X = Ok codes <->
  Forall2 (fun x c => match tm_selected (tw_master w) with None => Err AttributeError | Some sel => predict_code x (ta_leaves A) (tm_splits (tw_master w)) sel end = Ok c) X codes.
Proof.
  intros Hn codes. cbn [tree_kind k_codes]. destruct (tm_selected (tw_master w)) as [e|]; [apply map_res_F2|].
  split; [discriminate|]. intros F. destruct X as [|x X]; [congruence|]. inversion F; discriminate.
Qed.

(** A table is predicted if and only if each of its rows is, with the same labels: predictions do not depend on the other rows. *)
Theorem C85_rows : forall L (lt : L -> L -> bool) fuel cs X ls, strict_order lt ->
  (forall sv P clk wreck w, let said := reply_to (bdr_kind sv P clk wreck) lt fuel w cs in
     said (Predict X) = Labels ls <-> tabular X /\ Forall2 (fun x v => said (Predict [x]) = Labels [v]) X ls) /\
  (forall sv A clk wreck w, let said := reply_to (tree_kind sv A clk wreck) lt fuel w cs in
     said (Predict X) = Labels ls <-> tabular X /\ Forall2 (fun x v => said (Predict [x]) = Labels [v]) X ls).
Proof.
  intros L lt fuel cs X ls O. split.
  - intros sv P clk wreck w said. apply (rows_alone _ _ lt fuel w cs X ls (bdr_rows sv P clk wreck) O).
  - intros sv A clk wreck w said. apply (rows_alone _ _ lt fuel w cs X ls (tree_rows sv A clk wreck) O).
Qed.
Print Assumptions C85_rows.

Lemma clause_longer x e c n : satisfies_clause x c = Ok n -> satisfies_clause (x ++ e) c = Ok n.
Proof.
  revert n. induction c as [|j c IH]; intros n; [exact (fun H => H)|]. cbn [satisfies_clause]. unfold getitem. destruct (nth_error x j) as [q|] eqn:E; [|discriminate].
  rewrite nth_error_app1 by (apply nth_error_Some; congruence). rewrite E. cbn [bind]. destruct (Qeq_bool q 0); auto.
Qed.
Lemma any_longer x e r n : any_clause x r = Ok n -> any_clause (x ++ e) r = Ok n.
Proof.
  revert n. induction r as [|c r IH]; intros n; [exact (fun H => H)|]. cbn [any_clause]. destruct (satisfies_clause x c) as [m|] eqn:E; [|discriminate].
  rewrite (clause_longer _ e _ _ E). cbn [bind]. destruct (m =? 0); auto.
Qed.
Lemma path_longer x e lf splits p b : row_satisfies_path x lf splits p = Ok b -> row_satisfies_path (x ++ e) lf splits p = Ok b.
Proof.
  unfold row_satisfies_path. generalize (seq 0 (length (p_nodes p))). intros is. revert b. induction is as [|i is IH]; intros b; [exact (fun H => H)|]. cbn [row_satisfies_loop].
  destruct (getitem (p_splits p) i) as [j|]; [|discriminate]. cbn [bind]. destruct (getitem splits j) as [s|]; [|discriminate]. cbn [bind]. destruct (getitem (p_nodes p) i) as [n|]; [|discriminate]. cbn [bind].
  unfold getitem. destruct (nth_error x (s_feature s)) as [q|] eqn:E; [|discriminate]. rewrite nth_error_app1 by (apply nth_error_Some; congruence). rewrite E. cbn [bind].
  destruct (memb n (l_left lf)); [destruct (Qltb _ _); auto|destruct (Qle_bool _ _); auto].
Qed.
Lemma code_longer x e leaves splits sel c : predict_code x leaves splits sel = Ok c -> predict_code (x ++ e) leaves splits sel = Ok c.
Proof.
  revert c. induction sel as [|p sel IH]; intros c; [exact (fun H => H)|]. cbn [predict_code]. destruct (getitem leaves (p_leaf p)) as [lf|]; [|discriminate]. cbn [bind].
  destruct (row_satisfies_path x lf splits p) as [b|] eqn:E; [|discriminate]. rewrite (path_longer _ e _ _ _ _ E). cbn [bind]. destruct b; auto.
Qed.
Lemma longer_alone {W D C L} (k : kind W D C) (one : W -> sample -> res Z) (lt : L -> L -> bool) fuel w cs X X' ls :
  (forall w X, X <> [] -> forall codes, k_codes k w X = Ok codes <-> Forall2 (fun x c => one w x = Ok c) X codes) -> strict_order lt ->
  (forall w x e c, one w x = Ok c -> one w (x ++ e) = Ok c) -> tabular X' -> Forall2 (fun x x' => exists e, x' = x ++ e) X X' ->
  reply_to k lt fuel w cs (Predict X) = Labels ls -> reply_to k lt fuel w cs (Predict X') = Labels ls.
Proof.
  intros HK O H1 HT F HP. destruct (predict_labels k lt fuel w cs X ls O HP) as ((Hn & _) & Hf & X0 & y0 & codes & _ & HC & Hk & FD).
  unfold reply_to. set (o := object_after k lt fuel w cs) in *. cbn [step snd]. unfold life_predict. destruct (HT) as [Hn' _]. apply check_array_iff in HT. rewrite HT, Hf.
  assert (E : k_codes k (f_world (lv_state o)) X' = Ok codes).
  { apply HK; [exact Hn'|]. apply (HK _ _ Hn) in Hk. clear - F Hk H1. revert codes Hk. induction F as [|x x' X X' (e & ->) _ IH]; intros codes Hk; inversion Hk; subst; constructor; auto. }
  rewrite E, HC. apply map_res_F2 in FD. rewrite FD. reflexivity.
Qed.

(** The number of columns is not checked: further columns after those of samples that can be predicted are ignored. *)
Theorem C85_extra_columns : forall L (lt : L -> L -> bool) fuel cs X X' ls, strict_order lt -> tabular X' -> Forall2 (fun x x' => exists e, x' = x ++ e) X X' ->
  (forall sv P clk wreck w, let said := reply_to (bdr_kind sv P clk wreck) lt fuel w cs in said (Predict X) = Labels ls -> said (Predict X') = Labels ls) /\
  (forall sv A clk wreck w, let said := reply_to (tree_kind sv A clk wreck) lt fuel w cs in said (Predict X) = Labels ls -> said (Predict X') = Labels ls).
Proof.
  intros L lt fuel cs X X' ls O HT F. split.
  - intros sv P clk wreck w said. apply (longer_alone _ _ lt fuel w cs X X' ls (bdr_rows sv P clk wreck) O); auto. cbn beta. intros w0 x e c. destruct (bm_explanation (bw_master w0)) as [r|]; [|discriminate].
    destruct (any_clause x r) as [n|] eqn:E; [|discriminate]. rewrite (any_longer _ e _ _ E). auto.
  - intros sv A clk wreck w said. apply (longer_alone _ _ lt fuel w cs X X' ls (tree_rows sv A clk wreck) O); auto. cbn beta. intros w0 x e c. destruct (tm_selected (tw_master w0)) as [r|]; [|discriminate].
    apply code_longer.
Qed.
Print Assumptions C85_extra_columns.

(** The boolean rule classifier gives the two smallest labels of its data only: a sample gets the second if a clause of the rule accepts it and
    the first otherwise.  Data with three labels are not rejected (C85_case), and every sample with the third is predicted wrong. *)
Theorem C85_two_labels : forall L (lt : L -> L -> bool) fuel sv P clk wreck w cs X ls X0 y0, strict_order lt -> latest cs X0 y0 ->
  let k := bdr_kind sv P clk wreck in reply_to k lt fuel w cs (Predict X) = Labels ls ->
  exists rule, learned (lv_state (object_after k lt fuel w cs)) = Some rule /\
    Forall2 (fun x v => if rule_accepts x rule then next_smallest lt y0 v else smallest lt y0 v) X ls.
Proof.
  intros L lt fuel sv P clk wreck w cs X ls X0 y0 O HL k HP. destruct (predict_labels k lt fuel w cs X ls O HP) as ((Hn & _) & _ & X' & y' & codes & HL' & _ & Hk & F).
  destruct (latest_unique cs X0 y0 X' y' HL HL') as [<- <-]. set (o := object_after k lt fuel w cs) in *. apply (bdr_rows sv P clk wreck _ X Hn) in Hk. unfold learned.
  destruct (bm_explanation (bw_master (f_world (lv_state o)))) as [rule|]; [|destruct X; [congruence|inversion Hk; discriminate]]. exists rule. split; [reflexivity|].
  assert (SC : forall x c n, satisfies_clause x c = Ok n -> n = if accepts x c then 1 else 0).
  { intros x c. induction c as [|j c IH]; intros n; cbn [satisfies_clause accepts forallb]; [congruence|]. unfold getitem, has. destruct (nth_error x j) as [q|]; [|discriminate]. cbn [bind].
    destruct (Qeq_bool q 0); cbn [negb andb]; [congruence|]. apply IH. }
  assert (AC : forall x r n, any_clause x r = Ok n -> n = if rule_accepts x r then 1 else 0).
  { intros x r. induction r as [|c r IH]; intros n; cbn [any_clause rule_accepts existsb]; [congruence|]. destruct (satisfies_clause x c) as [m|] eqn:E; [|discriminate]. cbn [bind]. apply SC in E. subst m.
    destruct (accepts x c); cbn [Nat.eqb orb]; [congruence|]. apply IH. }
  clear - O F Hk AC. revert ls F. induction Hk as [|x c X codes H1 _ IH]; intros ls F; inversion F as [|? v ? ls' Hd F']; subst; constructor; [|apply IH; exact F'].
  destruct (any_clause x rule) as [n|] eqn:E; [|discriminate]. cbn [bind] in H1. injection H1 as <-. apply AC in E. unfold decode in Hd. destruct (Z.of_nat n <? 0)%Z; [discriminate|]. rewrite Nat2Z.id in Hd.
  destruct (nth_error (label_classes lt y0) n) as [v'|] eqn:En; [|discriminate]. injection Hd as ->. destruct (rule_accepts x rule); subst n; [apply (code_second lt O); exact En|apply (code_smallest lt O _ _ _ En); reflexivity].
Qed.
Print Assumptions C85_two_labels.

(** * A first training *)
Lemma run_rejected {W D C L} (k : kind W D C) (lt : L -> L -> bool) fuel : forall cs o, (forall X y, In (Fit X y) cs -> ~ labelled X y) ->
  let o' := fst (run k lt fuel o cs) in f_world (lv_state o') = f_world (lv_state o) /\ f_fitted (lv_state o') = f_fitted (lv_state o) /\ lv_classes o' = lv_classes o.
Proof.
  induction cs as [|c cs IH]; intros o H; [cbn; auto|]. cbn [run]. destruct c as [X y|X]; cbn [step].
  - rewrite life_fit_bad by (apply H; left; reflexivity). set (o1 := mkLive _ _). assert (IH' := IH o1 (fun X' y' Hi => H X' y' (or_intror Hi))).
    destruct (run k lt fuel o1 cs) as [o2 rs]. cbn [fst] in *. exact IH'.
  - assert (IH' := IH o (fun X' y' Hi => H X' y' (or_intror Hi))). destruct (run k lt fuel o cs) as [o2 rs]. cbn [fst] in *. exact IH'.
Qed.
Lemma two_classes {L} (lt : L -> L -> bool) (O : strict_order lt) y a b : lt a b = true -> (forall v, In v y <-> v = a \/ v = b) -> label_classes lt y = [a; b].
Proof.
  intros Hab H. assert (I : SpecScript.increasing lt (label_classes lt y)) by (apply sorted_increasing; auto; apply classes_sorted; auto).
  assert (M : forall v, In v (label_classes lt y) <-> v = a \/ v = b) by (intros v; rewrite (classes_in lt O); apply H). clear H.
  destruct (label_classes lt y) as [|u l]; [destruct (proj2 (M a) (or_introl eq_refl))|].
  assert (N : forall i j v, nth_error (u :: l) i = Some v -> nth_error (u :: l) j = Some v -> i = j).
  { intros i j v Hi Hj. destruct (Nat.lt_trichotomy i j) as [K|[K|K]]; auto; exfalso; [apply (I i j v v Hi Hj) in K|apply (I j i v v Hj Hi) in K]; rewrite (so_irrefl lt O) in K; discriminate K. }
  assert (F : u = a).
  { destruct (proj1 (M u) (or_introl eq_refl)) as [-> | -> ]; [reflexivity|]. exfalso. destruct (In_nth_error _ _ (proj2 (M a) (or_introl eq_refl))) as [j Hj].
    apply (I j 0 a b Hj eq_refl) in Hab. lia. }
  subst u. destruct l as [|u l]; [destruct (proj2 (M b) (or_intror eq_refl)) as [<-|[]]; rewrite (so_irrefl lt O) in Hab; discriminate Hab|].
  assert (F : u = b). { destruct (proj1 (M u) (or_intror (or_introl eq_refl))) as [-> | -> ]; [|reflexivity]. discriminate (N 0 1 a eq_refl eq_refl). }
  subst u. destruct l as [|u l]; [reflexivity|]. exfalso. destruct (proj1 (M u) (or_intror (or_intror (or_introl eq_refl)))) as [-> | -> ].
  - discriminate (N 0 2 a eq_refl eq_refl).
  - discriminate (N 1 2 b eq_refl eq_refl).
Qed.

(** A boolean rule classifier trained once on two labels [a] and [b] in any ordered type, with solvers that answer (as in C60): fit returns,
    whatever was predicted before, and from then on every table of [n] columns is predicted by one and the same rule, unless fit accepts data
    again. *)
Theorem C85_first_training : forall L (lt : L -> L -> bool) n X y a b sv P clk wreck fuel tau before after, strict_order lt -> lt a b = true -> (forall v, In v y <-> v = a \/ v = b) ->
  X <> [] -> 0 < n -> Forall (fun r => length r = n) X -> length y = length X -> let codes := map (fun v => if lt a v then 1 else 0) y in
  (tau <= 1 # 1000000)%Q -> near_rmp n X codes (bp_C P) (bp_p P) tau (sv_lp sv) -> complete_pricing n X codes (bp_C P) (sv_pricing sv) ->
  complete_ip n X codes (bp_C P) (bp_p P) (sv_ip sv) -> 2 ^ n <= fuel ->
  (forall c, In c before -> is_fit c = false) -> (forall X' y', In (Fit X' y') after -> ~ labelled X' y') ->
  let said := reply_to (bdr_kind sv P clk wreck) lt fuel (bdr_init P) in
  said before (Fit X y) = Fitted /\
  exists rule, Forall (clause_over n) rule /\ (Z.of_nat (nsum complexity rule) <= bp_C P)%Z /\
    forall Xs, Xs <> [] -> Forall (fun r => length r = n) Xs -> said (before ++ Fit X y :: after) (Predict Xs) = Labels (map (fun x => if rule_accepts x rule then b else a) Xs).
Proof.
  intros L lt n X y a b sv P clk wreck fuel tau before after O Hab HY HX Hn HR Hlen codes Ht HL HP HI Hf HB HA said. set (k := bdr_kind sv P clk wreck) in *.
  assert (LD : labelled X y) by (split; [split; [exact HX|exists n; auto]|exact Hlen]).
  assert (EC : label_classes lt y = [a; b]) by (apply two_classes; auto).
  assert (EB : object_after k lt fuel (bdr_init P) before = fresh (bdr_init P)).
  { unfold object_after. rewrite run_predicts. assert (G : filter is_fit before = []); [|rewrite G; reflexivity]. clear - HB. induction before as [|c before IH]; [reflexivity|]. cbn [filter].
    rewrite (HB c (or_introl eq_refl)). apply IH. intros; apply HB; right; assumption. }
  destruct (life_fit_ok k lt fuel O X y (fresh (bdr_init P)) LD) as (codes' & EE & HC & EF). rewrite EC in *.
  assert (E' : codes' = codes).
  { unfold codes. clear - HC Hab O. unfold coded in HC. induction HC as [|c v l l' H _ IH]; [reflexivity|]. cbn [map]. rewrite IH. f_equal. destruct c as [|[|c]]; cbn in H.
    - injection H as <-. rewrite (so_irrefl lt O). reflexivity. - injection H as <-. rewrite Hab. reflexivity. - destruct c; discriminate H. }
  subst codes'.
  assert (DS : dataset n X codes).
  { split; [exact HX|]. split; [unfold codes; rewrite map_length; congruence|]. split; [exact HR|]. unfold codes. rewrite Forall_forall. intros t Ht'. apply in_map_iff in Ht'. destruct Ht' as (v & <- & _). destruct (lt a v); auto. }
  assert (I0 : In 0 codes). { apply in_map_iff. exists a. split; [rewrite (so_irrefl lt O); reflexivity|apply HY; auto]. }
  assert (I1 : In 1 codes). { apply in_map_iff. exists b. split; [rewrite Hab; reflexivity|apply HY; auto]. }
  destruct (C60_fit_never_raises n X codes sv P clk fuel tau DS I0 I1 Ht HL HP HI Hf) as (s & ES & Hfit).
  destruct (bdr_fit_done n X codes DS sv P clk tau Ht HL HP HI fuel s ES) as ((K & x & (I & PK & _) & Fx & _ & EX) & _ & _).
  unfold bdr_fit in ES. change (k_calls k X codes) with (bdr_env sv P clk X codes) in EF. cbn [fresh lv_state] in EF. rewrite ES in EF. cbn [fst snd] in EF.
  split; [unfold said, reply_to; rewrite EB; cbn [step]; rewrite EF; reflexivity|].
  destruct PK as (_ & NK & SK & OK). exists (chosen X codes K x).
  assert (IN : incl (chosen X codes K x) K) by (intros c Hc; eapply chosen_In; eauto).
  assert (OV : Forall (clause_over n) (chosen X codes K x)) by (eapply incl_Forall; eauto).
  split; [exact OV|]. split. { pose proof (chosen_complexity X codes _ _ K x Fx) as H. unfold qn in H. rewrite <- Zle_Qle in H. exact H. }
  intros Xs Hne HXs. unfold said.
  assert (EA : exists o, object_after k lt fuel (bdr_init P) (before ++ Fit X y :: after) = o /\ f_world (lv_state o) = f_world s /\ f_fitted (lv_state o) = true /\ lv_classes o = Some [a; b]).
  { exists (fst (run k lt fuel (mkLive s (Some [a; b])) after)). split.
    - unfold object_after in *. rewrite run_app. destruct (run k lt fuel (fresh (bdr_init P)) before) as [o1 r1]. cbn [fst] in EB. subst o1. cbn [run step]. rewrite EF. destruct (run k lt fuel _ after). reflexivity.
    - destruct (run_rejected k lt fuel after (mkLive s (Some [a; b])) HA) as (R1 & R2 & R3). rewrite R1, R2, R3. auto. }
  destruct EA as (o & Eo & E1 & E2 & E3). apply (proj1 (C85_same_predict L lt fuel) sv P clk wreck (bdr_init P) _ Xs _). fold k. rewrite Eo.
  split; [split; [exact Hne|exists n; auto]|]. split; [exact E2|]. exists (chosen X codes K x), [a; b]. split; [unfold learned; rewrite E1; exact EX|]. split; [exact E3|]. apply (predict_ok n); auto.
Qed.
Print Assumptions C85_first_training.

(** The same for the tree classifier: [classes] are the labels of [y] in increasing order and the arguments of the constructor fit the numbered data.  After
    fit has returned there is one tree; a table of samples that have the features of the splits gets the labels of the leaves they reach, and ValueError if
    one of them is a leaf without class (C48). *)
Theorem C85_first_tree : forall L (lt : L -> L -> bool) A X (y : list L) codes sv clk wreck w fuel before after, strict_order lt -> tabular X ->
  let classes := label_classes lt y in encode lt classes y = Ok codes -> dtree_init A = Ok w -> trainable A X codes -> length y = length X -> honest (fit_setup A X codes) sv ->
  iteration_bound (fit_setup A X codes) <= fuel ->
  (forall c, In c before -> is_fit c = false) -> (forall X' y', In (Fit X' y') after -> ~ labelled X' y') ->
  let said := reply_to (tree_kind sv A clk wreck) lt fuel w in
  SpecScript.increasing lt classes /\ (forall v, In v classes <-> In v y) /\ coded classes codes y /\
  said before (Fit X y) = Fitted /\
  exists sel tree, forms_tree (fit_setup A X codes) tree sel /\
    forall Xs, tabular Xs -> Forall (fits (ta_splits A)) Xs ->
      said (before ++ Fit X y :: after) (Predict Xs) =
      match map_res (fun xr => decode classes (leaf_target sel (tree_leaf (ta_depth A) (ta_splits A) tree xr))) Xs with Ok ls => Labels ls | Err e => PredictRaised e end.
Proof.
  intros L lt A X y codes sv clk wreck w fuel before after O HX classes EE Ew TR Hlen Ho Hf HB HA said. set (k := tree_kind sv A clk wreck) in *.
  split; [apply sorted_increasing; auto; apply classes_sorted; auto|]. split; [intros v; apply (classes_in lt O)|]. split; [apply (encode_coded lt O); exact EE|].
  assert (LD : labelled X y) by (split; auto).
  assert (EB : object_after k lt fuel w before = fresh w).
  { unfold object_after. rewrite run_predicts. assert (G : filter is_fit before = []); [|rewrite G; reflexivity]. clear - HB. induction before as [|c before IH]; [reflexivity|]. cbn [filter].
    rewrite (HB c (or_introl eq_refl)). apply IH. intros; apply HB; right; assumption. }
  destruct (life_fit_ok k lt fuel O X y (fresh w) LD) as (codes' & EE' & _ & EF). fold classes in EE', EF. rewrite EE in EE'. injection EE' as <-.
  destruct (C65_training A X codes sv clk w fuel Ew TR Ho Hf) as (s & sel & tree & ES & _ & Esel & HT & Hpr).
  assert (Hfit : f_fitted s = true). { unfold tree_fit in ES. pose proof (fit_done_fitted (tree_env sv A clk X codes) fuel (map Z.of_nat codes) (new_estimator w) tt) as G. rewrite ES in G. apply G. reflexivity. }
  unfold tree_fit in ES. change (k_calls k X codes) with (tree_env sv A clk X codes) in EF. cbn [fresh lv_state] in EF. rewrite ES in EF. cbn [fst snd] in EF.
  split; [unfold said, reply_to; rewrite EB; cbn [step]; rewrite EF; reflexivity|]. exists sel, tree. split; [exact HT|].
  intros Xs HXs HFs. unfold said.
  assert (EA : exists o, object_after k lt fuel w (before ++ Fit X y :: after) = o /\ f_world (lv_state o) = f_world s /\ f_fitted (lv_state o) = true /\ lv_classes o = Some classes).
  { exists (fst (run k lt fuel (mkLive s (Some classes)) after)). split.
    - unfold object_after in *. rewrite run_app. destruct (run k lt fuel (fresh w) before) as [o1 r1]. cbn [fst] in EB. subst o1. cbn [run step]. rewrite EF. destruct (run k lt fuel _ after). reflexivity.
    - destruct (run_rejected k lt fuel after (mkLive s (Some classes)) HA) as (R1 & R2 & R3). rewrite R1, R2, R3. auto. }
  destruct EA as (o & Eo & E1 & E2 & E3). specialize (Hpr L classes Xs HFs). rewrite <- Hpr.
  unfold reply_to. rewrite Eo. cbn [step snd]. unfold life_predict. apply check_array_iff in HXs. rewrite HXs, E2, E3, E1. unfold k. cbn [tree_kind k_codes]. unfold tree_predict, predict. rewrite Esel.
  destruct (map_res (fun x => predict_code x (ta_leaves A) (tm_splits (tw_master (f_world s))) sel) Xs); reflexivity.
Qed.
Print Assumptions C85_first_tree.
Example C85_case_tree : let y := [5; 8; 5]%Z in tabular ex1_X /\ encode Z.ltb (label_classes Z.ltb y) y = Ok ex1_y /\ label_classes Z.ltb y = [5; 8]%Z /\ trainable (ex1_args 1 false) ex1_X ex1_y /\
  (exists w, dtree_init (ex1_args 1 false) = Ok w) /\ exists sv, honest (fit_setup (ex1_args 1 false) ex1_X ex1_y) sv.
Proof.
  split; [split; [discriminate|exists 1; split; [lia|repeat constructor]]|]. split; [reflexivity|]. split; [reflexivity|]. split; [apply ex1_trainable|].
  split; [eexists; reflexivity|]. destruct (C65_solvers _ (tr_setup _ _ _ (ex1_trainable false))) as (sv & H & _). exists sv. exact H.
Qed.

(** * What a failed or a second training does to predictions *)
Lemma Zltb_order : strict_order Z.ltb.
Proof. split; [intros; apply Z.ltb_irrefl|intros a b c; rewrite !Z.ltb_lt; lia|intros a b; rewrite !Z.ltb_ge; lia]. Qed.

(** A call of fit that raised is not without effect: with exact solvers the classifier is trained on labels 3 and 7 and predicts its data; after
    fit has rejected data with the single label 5, predicting the same samples raises, and a sample that got 3 gets the label 5. *)
Theorem C85_failed_fit_refuted : exists n X y y' x P sv, forall wreck, let said := reply_to (bdr_kind sv P (fun _ => 0%Q) wreck) Z.ltb 2 (bdr_init P) in
  (exact_rmp n X [1; 0] (bp_C P) (bp_p P) (sv_lp sv) /\ SpecBdr.exact_pricing n X [1; 0] (bp_C P) (sv_pricing sv) /\ exact_ip n X [1; 0] (bp_C P) (bp_p P) (sv_ip sv)) /\
  encode Z.ltb (label_classes Z.ltb y) y = Ok [1; 0] /\ In x X /\
  said [] (Fit X y) = Fitted /\ said [Fit X y] (Predict X) = Labels y /\ said [Fit X y] (Predict [x]) = Labels [3]%Z /\
  said [Fit X y] (Fit X y') = FitRaised ValueError /\
  said [Fit X y; Fit X y'] (Predict X) = PredictRaised ValueError /\ said [Fit X y; Fit X y'] (Predict [x]) = Labels [5]%Z.
Proof.
  exists 1, tiny_X, [7; 3]%Z, [5; 5]%Z, [0]%Q, (tiny_params None), tiny_solvers. intros wreck said.
  split; [split; [apply (tiny_exact_rmp tiny_y None); auto|]; split; [apply (tiny_exact_pricing tiny_y None); auto|apply (tiny_exact_ip tiny_y None); auto]|].
  split; [reflexivity|]. split; [right; left; reflexivity|]. unfold said.
  split; [vm_compute; reflexivity|]. split; [vm_compute; reflexivity|]. split; [vm_compute; reflexivity|]. split; [vm_compute; reflexivity|]. split; vm_compute; reflexivity.
Qed.
Print Assumptions C85_failed_fit_refuted.

(** A second training keeps the first data but takes the new labels: with exact solvers a classifier trained again, on other labels of
    the same samples, returns from fit and is then wrong about every sample it was just trained on. *)
Theorem C85_second_training_refuted : exists n X y y' P sv, forall wreck, let said := reply_to (bdr_kind sv P (fun _ => 0%Q) wreck) Z.ltb 2 (bdr_init P) in
  (forall t, t = [1; 0] \/ t = [0; 1] -> exact_rmp n X t (bp_C P) (bp_p P) (sv_lp sv) /\ SpecBdr.exact_pricing n X t (bp_C P) (sv_pricing sv) /\ exact_ip n X t (bp_C P) (bp_p P) (sv_ip sv)) /\
  encode Z.ltb (label_classes Z.ltb y) y = Ok [1; 0] /\ encode Z.ltb (label_classes Z.ltb y') y' = Ok [0; 1] /\
  said [] (Fit X y) = Fitted /\ said [Fit X y] (Predict X) = Labels y /\ said [Fit X y] (Fit X y') = Fitted /\
  exists ls, said [Fit X y; Fit X y'] (Predict X) = Labels ls /\ Forall2 (fun v u => v <> u) ls y'.
Proof.
  exists 1, tiny_X, [7; 3]%Z, [2; 9]%Z, (tiny_params None), tiny_solvers. intros wreck said.
  split. { intros t Ht. assert (Ht' : t = tiny_y \/ t = tiny_y') by exact Ht. split; [apply tiny_exact_rmp; auto|]. split; [apply (tiny_exact_pricing t None); auto|apply tiny_exact_ip; auto]. }
  split; [reflexivity|]. split; [reflexivity|]. unfold said.
  split; [vm_compute; reflexivity|]. split; [vm_compute; reflexivity|]. split; [vm_compute; reflexivity|]. exists [9; 2]%Z. split; [vm_compute; reflexivity|]. repeat constructor; discriminate.
Qed.
Print Assumptions C85_second_training_refuted.

(** The integer solver fails in a second training: fit raises AssertionError after solve_ip has cleared the explanation, so the classifier, still fitted,
    predicts the smallest label for every sample although it predicted its data before.  [wreck] is what solve_ip leaves behind when the solver finds no solution. *)
Theorem C85_failed_solver_refuted : exists X y P sv, let clk := fun _ => 0%Q in
  let wreck := fun (_ : list sample) (_ : list nat) (_ : exn) w => mkBworld (fst (BdrModel.solve_ip None (bw_master w))) (bw_sub w) (bw_calls w) (bw_last w) in
  let k := bdr_kind sv P clk wreck in let said := reply_to k Z.ltb 2 (bdr_init P) in
  said [] (Fit X y) = Fitted /\ said [Fit X y] (Predict X) = Labels y /\ said [Fit X y] (Fit X y) = FitRaised AssertionError /\
  (let before := f_world (fst (bdr_fit sv P clk X [1; 0] 2 (lv_state (object_after k Z.ltb 2 (bdr_init P) [Fit X y])))) in
   sv_ip sv (bw_calls before) (bm_lp (bw_master before)) = None /\ bdr_solve_ip sv before = Err AssertionError) /\
  said [Fit X y; Fit X y] (Predict X) = Labels [3; 3]%Z /\ y = [7; 3]%Z.
Proof.
  exists tiny_X, [7; 3]%Z, (tiny_params None), (mkSolvers (fun _ => tiny_lp) (fun _ => by_enumeration 1 tiny_X 2) (fun t m => if t <? 6 then Some (fst (tiny_lp m)) else None)).
  intros clk wreck k said. unfold said.
  split; [vm_compute; reflexivity|]. split; [vm_compute; reflexivity|]. split; [vm_compute; reflexivity|]. split; [split; vm_compute; reflexivity|]. split; vm_compute; reflexivity.
Qed.
Print Assumptions C85_failed_solver_refuted.

(** A history: predict before fit, a table that is none, a training, a prediction, rejected data, a prediction with an additional column, a training on one
    label, and predictions of single rows. *)
Example C85_case : forall wreck, let k := bdr_kind tiny_solvers (tiny_params None) (fun _ => 0%Q) wreck in
  replies k Z.ltb 2 (bdr_init (tiny_params None))
    [Predict tiny_X; Predict []; Fit tiny_X [7; 3]%Z; Predict tiny_X; Fit [] []; Fit tiny_X [7; 3; 3]%Z; Predict [[1; 5]; [0; 5]]%Q; Predict [[1; 5]; [0]]%Q;
     Fit tiny_X [5; 5]%Z; Predict [[0]]%Q; Predict [[1]]%Q] =
  [NotFitted; PredictRaised ValueError; Fitted; Labels [7; 3]%Z; FitRaised ValueError; FitRaised ValueError; Labels [7; 3]%Z; PredictRaised ValueError;
   FitRaised ValueError; Labels [5]%Z; PredictRaised ValueError].
Proof. intros wreck. vm_compute. reflexivity. Qed.
(** Three labels: fit with one iteration returns. *)
Example C85_case_three : forall wreck, let P := mkBparams 2 1 1 (-1) None in let sv := mkSolvers (fun _ _ => (fun _ => 0%Q, fun _ => 0%Q)) (fun _ _ => Some (fun _ => 0%Q)) (fun _ _ => Some (fun _ => 1%Q)) in
  replies (bdr_kind sv P (fun _ => 0%Q) wreck) Z.ltb 2 (bdr_init P) [Fit [[1]; [0]; [0]]%Q [7; 3; 9]%Z; Predict [[1]; [0]]%Q] = [Fitted; Labels [7; 7]%Z]
  /\ latest [Fit [[1]; [0]; [0]]%Q [7; 3; 9]%Z] [[1]; [0]; [0]]%Q [7; 3; 9]%Z /\ smallest Z.ltb [7; 3; 9]%Z 3%Z /\ next_smallest Z.ltb [7; 3; 9]%Z 7%Z.
Proof.
  intros wreck. split; [vm_compute; reflexivity|]. split.
  - exists [], []. split; [reflexivity|]. split; [|intros ? ? []]. split; [split; [discriminate|exists 1; split; [lia|repeat constructor]]|reflexivity].
  - assert (S3 : smallest Z.ltb [7; 3; 9]%Z 3%Z) by (split; [right; left; reflexivity|]; intros u [<-|[<-|[<-|[]]]]; reflexivity).
    split; [exact S3|]. exists 3%Z. split; [exact S3|]. split; [discriminate|]. split; [left; reflexivity|]. intros u [<-|[<-|[<-|[]]]] Hu; try reflexivity. congruence.
Qed.
(** The hypotheses of C85_first_training with labels of type Z. *)
Example C85_case_first : let P := tiny_params None in let y := [7; 3]%Z in
  strict_order Z.ltb /\ (forall v, In v y <-> v = 3%Z \/ v = 7%Z) /\ map (fun v => if Z.ltb 3 v then 1 else 0) y = tiny_y /\
  near_rmp 1 tiny_X tiny_y (bp_C P) (bp_p P) 0 (sv_lp tiny_solvers) /\ complete_pricing 1 tiny_X tiny_y (bp_C P) (sv_pricing tiny_solvers) /\
  complete_ip 1 tiny_X tiny_y (bp_C P) (bp_p P) (sv_ip tiny_solvers) /\ 2 ^ 1 <= 2.
Proof.
  intros P y. split; [exact Zltb_order|]. split; [intros v; cbn; intuition|]. split; [reflexivity|].
  split; [apply exact_near_rmp, (tiny_exact_rmp tiny_y None); auto|].
  split; [apply exact_complete_pricing, (tiny_exact_pricing tiny_y None); auto|]. split; [apply exact_complete_ip, (tiny_exact_ip tiny_y None); auto|cbn; lia].
Qed.

(** Property C86: the time reported for generating cuts is part of the time reported for the master problem. *)
From Verif Require Import Base Lp LpProofs FitModel SpecFit SpecReport FitProofs FitMainProofs TimelineProofs SpecDual LpCheck TreeModel TreePricingModel TreeFitModel SpecTree SpecTreeResult
  SpecMain MainProofs PropFit PropTreeResult PropTreeRefit PropReport ExpMainModel PropMain CutTimeModel SpecCutTime CutTimeProofs.
Open Scope nat_scope.

(** Keeping the time changes nothing else: every attribute, every call and every outcome is that of the training without it. *)
Theorem C86_same_training : forall ticks sv A clk X y fuel s s' r, timed_fit ticks sv A clk X y fuel s = (s', r) -> tree_fit sv A clk X y fuel (untimed s) = (untimed s', r).
Proof. intros ticks sv A clk X y fuel s s' r E. rewrite (timed_erase ticks), E. reflexivity. Qed.
Print Assumptions C86_same_training.

(** A call of fit adds to cut_gen_time exactly the time between the pairs of readings around its searches for cuts: at least 0 and at most what it reports as time of the master problem, if fit and the master problem read the same clock. *)
Theorem C86_part_of_master : forall ticks sv A clk X y fuel s s' t, (forall n, clk n <= clk (S n))%Q ->
  timed_fit ticks sv A clk X y fuel s = (s', Done tt) -> f_trace s' = f_trace s ++ t ->
  exists tl : timeline,
    f_tick s' = f_tick s + length tl /\ map fst tl = map clk (seq (f_tick s) (length tl)) /\ concat (map snd tl) = t /\ Forall (fun qe => alone (snd qe)) tl /\
    readings t = map ticks (seq (st_read (snd (f_world s))) (length (readings t))) /\ st_read (snd (f_world s')) = st_read (snd (f_world s)) + length (readings t) /\
    (cut_gen_time s' == cut_gen_time s + qsum inner t)%Q /\ (one_clock tl -> 0 <= cut_gen_time s' - cut_gen_time s <= f_tmaster s')%Q.
Proof.
  intros ticks sv A clk X y fuel s s' t Mono E Ht.
  destruct (fit_inv (timed_env ticks sv A clk X y) Mono _ _ _ _ _ E) as (tl & []).
  destruct (along_fit ticks sv A clk X y _ _ _ _ _ _ _ E eq_refl eq_refl eq_refl) as (u & Eu & R1 & R2 & R3 & _).
  rewrite Ht in Eu. apply app_inv_head in Eu. subst u. rewrite Ht in i_trace. apply app_inv_head in i_trace. exists tl.
  split; [exact i_tick|]. split; [exact i_read|]. split; [congruence|]. split; [exact i_alone|]. split; [exact R2|]. split; [exact R1|].
  split; [exact R3|]. intros HO.
  assert (G : (0 <= qsum inner (concat (map snd tl)) <= spent (holds is_solve) tl)%Q).
  { apply inner_spent; auto. destruct i_last as (tl0 & q & e & El & [->|[Hf _]]); [|discriminate]. exists tl0, q, []. split; [exact El|intros x []]. }
  rewrite <- i_trace in G. unfold cut_gen_time. rewrite R3, i_master. lra.
Qed.
Print Assumptions C86_part_of_master.

(** For a first training the column mster_cuts_time is therefore between 0 and the column master_time. *)
Theorem C86_first : forall ticks sv A clk X y fuel w s', (forall n, clk n <= clk (S n))%Q -> dtree_init A = Ok w ->
  timed_fit ticks sv A clk X y fuel (new_estimator (w, new_stopper)) = (s', Done tt) ->
  exists tl : timeline, f_tick s' = length tl /\ map fst tl = map clk (seq 0 (length tl)) /\ concat (map snd tl) = f_trace s' /\
    readings (f_trace s') = map ticks (seq 0 (length (readings (f_trace s')))) /\ (one_clock tl -> 0 <= cut_gen_time s' <= f_tmaster s')%Q.
Proof.
  intros ticks sv A clk X y fuel w s' Mono Ew E. destruct (C86_part_of_master ticks sv A clk X y fuel _ s' (f_trace s') Mono E eq_refl) as (tl & H1 & H2 & H3 & _ & H5 & _ & _ & H7).
  exists tl. split; [exact H1|]. split; [exact H2|]. split; [exact H3|]. split; [exact H5|]. intros HO. specialize (H7 HO). unfold cut_gen_time at 2 in H7. cbn in H7. lra.
Qed.
Print Assumptions C86_first.

Lemma life_iter ticks sv A clk s : life ticks sv A clk s -> tm_iter (tw_master (fst (f_world s))) = count is_solve (f_trace s) /\ (count is_solve (f_trace s) < 10 -> snd (f_world s) = new_stopper).
Proof.
  induction 1 as [w Ew|s X y fuel s' L [I1 I2] E].
  - cbn [new_estimator f_world f_trace fst snd]. split; [|auto]. unfold dtree_init in Ew. apply bind_ok in Ew. destruct Ew as [? [_ Ew]]. apply bind_ok in Ew. destruct Ew as [? [_ Ew]]. injection Ew as <-. reflexivity.
  - destruct (along_fit ticks sv A clk X y _ _ _ _ _ _ _ E eq_refl eq_refl eq_refl) as (u & Eu & _ & _ & _ & R4 & R5). rewrite Eu, count_app. split; [congruence|].
    intros H. rewrite R5, I2; [reflexivity|lia|]. rewrite I1, !Nat.div_small by lia. reflexivity.
Qed.
(** The clock is read in every tenth call of solve_rmp only, counted over the whole life of the estimator: before the tenth, cut_gen_time is 0, and a training in which no
    multiple of ten is reached leaves it alone. *)
Theorem C86_every_tenth : forall ticks sv A clk s, life ticks sv A clk s ->
  (count is_solve (f_trace s) < 10 -> cut_gen_time s = 0%Q) /\
  forall X y fuel s', timed_fit ticks sv A clk X y fuel s = (s', Done tt) ->
    count is_solve (f_trace s') / 10 = count is_solve (f_trace s) / 10 -> cut_gen_time s' = cut_gen_time s.
Proof.
  intros ticks sv A clk s L. destruct (life_iter _ _ _ _ _ L) as [I1 I2]. split; [intros H; unfold cut_gen_time; rewrite (I2 H); reflexivity|].
  intros X y fuel s' E H. destruct (along_fit ticks sv A clk X y _ _ _ _ _ _ _ E eq_refl eq_refl eq_refl) as (u & Eu & _ & _ & _ & _ & R5). unfold cut_gen_time. rewrite R5; [reflexivity|].
  rewrite I1. rewrite Eu, count_app in H. exact H.
Qed.
Print Assumptions C86_every_tenth.

Lemma plain_count {D C} (tr : list (event (D * list Q) C)) : count is_solve (map plain_event tr) = count is_solve tr.
Proof. unfold count. induction tr as [|x tr IH]; [reflexivity|]. cbn [map filter]. destruct x; cbn [plain_event is_solve]; try exact IH. cbn [length]. rewrite IH. reflexivity. Qed.
(** The results file of the experiment script: the column mster_cuts_time is between 0 and the column master_time, and 0 in a run of fewer than ten iterations. *)
Theorem C86_reported : forall ticks wd o fuel t r1 r2, script_input wd o -> train wd o fuel = Done t -> main wd o fuel = Done (r1, r2) ->
  (forall n, wd_fit_clock wd n <= wd_fit_clock wd (S n))%Q ->
  exists w s' tl, dtree_init (td_args t) = Ok w /\
    timed_fit ticks (wd_solvers wd) (td_args t) (wd_fit_clock wd) (wd_X wd) (wd_y wd) fuel (new_estimator (w, new_stopper)) = (s', Done tt) /\ untimed s' = td_state t /\
    f_tick s' = length tl /\ map fst tl = map (wd_fit_clock wd) (seq 0 (length tl)) /\ concat (map snd tl) = f_trace s' /\
    (one_clock tl -> 0 <= cut_gen_time s' <= rs_master r2)%Q /\ (rs_iterations r2 < 10 -> cut_gen_time s' = 0%Q).
Proof.
  intros ticks wd o fuel t r1 r2 Si Et Em Mono. destruct (train_done wd o fuel t Si Et) as (n & k & ag & rest & pre & out & w0 & _ & _ & _ & _ & _ & _ & _ & Ew & Ef).
  destruct (main_report _ _ _ _ _ _ Et Em) as (_ & Hm & _). destruct (C71_reported _ _ _ _ _ _ Si Et Em) as (Hi & _). cbv zeta in Hm, Hi.
  pose proof (timed_erase ticks (wd_solvers wd) (td_args t) (wd_fit_clock wd) (wd_X wd) (wd_y wd) fuel (new_estimator (w0, new_stopper))) as Er.
  change (untimed (new_estimator (w0, new_stopper))) with (@new_estimator tworld tduals path w0) in Er. rewrite Ef in Er.
  destruct (timed_fit _ _ _ _ _ _ _ _) as [s' r] eqn:Et'. cbn [fst snd] in Er.
  assert (U : td_state t = untimed s') by exact (f_equal fst Er). assert (R : r = Done tt) by exact (eq_sym (f_equal snd Er)). subst r.
  destruct (C86_first ticks _ _ _ _ _ _ _ _ Mono Ew Et') as (tl & H1 & H2 & H3 & _ & H5). exists w0, s', tl.
  split; [exact Ew|]. split; [exact Et'|]. split; [symmetry; exact U|]. split; [exact H1|]. split; [exact H2|]. split; [exact H3|].
  rewrite Hm, Hi, U. split; [exact H5|]. intros H.
  destruct (C86_every_tenth ticks _ _ _ _ (trained _ _ _ _ _ _ _ _ _ (built _ _ _ _ _ Ew) Et')) as [T _]. apply T.
  cbn [untimed f_trace] in H. rewrite plain_count in H. exact H.
Qed.
Print Assumptions C86_reported.

(** * Cases *)
Section Check.
Context {D C : Type}.
Notation ev := (event (D * list Q) C).
Fixpoint ascb (l : list Q) : bool := match l with a :: l' => match l' with b :: _ => Qle_bool a b && ascb l' | [] => true end | [] => true end.
Lemma ascb_ok l : ascb l = true -> ascending l.
Proof.
  induction l as [|a l IH]; intros H i x y Hx Hy; [destruct i; discriminate|]. destruct l as [|b l]; [destruct i as [|[|i]]; discriminate|].
  cbn [ascb] in H. apply andb_prop in H. destruct H as [H1 H2]. destruct i as [|i]; [injection Hx as <-; injection Hy as <-; apply Qle_bool_iff; exact H1|]. exact (IH H2 i x y Hx Hy).
Qed.
Definition calm (q q' : Q) (x : ev) : bool := match x with EvSolveRmp d => ascb (q :: snd d ++ [q']) | _ => true end.
Fixpoint clockb (tl : list (Q * list ev)) : bool :=
  match tl with a :: tl' => match tl' with b :: _ => forallb (calm (fst a) (fst b)) (snd a) && clockb tl' | [] => true end | [] => true end.
Lemma clockb_ok tl : clockb tl = true -> one_clock tl.
Proof.
  induction tl as [|a tl IH]; intros H k q e q' e' d sn H1 H2 Hin; [destruct k; discriminate|]. destruct tl as [|b tl]; [destruct k as [|[|k]]; discriminate|].
  cbn [clockb] in H. apply andb_prop in H. destruct H as [G1 G2]. destruct k as [|k]; [|exact (IH G2 k q e q' e' d sn H1 H2 Hin)].
  injection H1 as ->. injection H2 as ->. rewrite forallb_forall in G1. apply G1 in Hin. apply ascb_ok. exact Hin.
Qed.
(** Cut a list of calls into pieces of the given lengths. *)
Fixpoint chop (ns : list nat) (t : list ev) : list (list ev) := match ns with [] => [] | n :: ns' => firstn n t :: chop ns' (skipn n t) end.
Lemma chop_length ns : forall t, length (chop ns t) = length ns.
Proof. induction ns as [|n ns IH]; intros t; cbn; auto. Qed.
Lemma chop_concat ns : forall t, length t = fold_right Nat.add 0 ns -> concat (chop ns t) = t.
Proof.
  induction ns as [|n ns IH]; intros t H; cbn [chop concat fold_right] in *; [destruct t; [reflexivity|discriminate]|].
  rewrite IH by (rewrite skipn_length; lia). apply firstn_skipn.
Qed.
Lemma fst_combine {A B} (l : list A) (m : list B) : length l = length m -> map fst (combine l m) = l.
Proof. revert m. induction l as [|a l IH]; intros [|b m] H; cbn in *; try discriminate; auto. f_equal. apply IH. lia. Qed.
Lemma snd_combine {A B} (l : list A) (m : list B) : length l = length m -> map snd (combine l m) = m.
Proof. revert m. induction l as [|a l IH]; intros [|b m] H; cbn in *; try discriminate; auto. f_equal. apply IH. lia. Qed.
Definition aloneb (es : list ev) : bool := (length es <=? 1) || forallb is_offer es.
Lemma aloneb_ok (tl : list (Q * list ev)) : forallb (fun qe => aloneb (snd qe)) tl = true -> Forall (fun qe => alone (snd qe)) tl.
Proof. rewrite forallb_forall, Forall_forall. intros H x Hx. apply H in Hx. unfold aloneb in Hx. apply orb_prop in Hx. destruct Hx as [Hx|Hx]; [left; apply Nat.leb_le, Hx|right; exact Hx]. Qed.
End Check.

Lemma six {A B C D E F} (a a' : A) (b b' : B) (c c' : C) (d d' : D) (e e' : E) (f f' : F) :
  Some (a, b, c, d, e, f) = Some (a', b', c', d', e', f') -> a = a' /\ b = b' /\ c = c' /\ d = d' /\ e = e' /\ f = f'.
Proof. intros H. injection H as H1 H2 H3 H4 H5 H6. repeat split; assumption. Qed.

(** An estimator limited to one iteration, trained eleven times. *)
Definition c_args : targs := mkTargs (ta_paths r_args) (ta_leaves r_args) (ta_nodes r_args) (ta_splits r_args) 1 [0; 1]%Z 1 (-1) 3 false true None false.
(** Time passes in the tenth training only, while cuts are looked for. *)
Definition c_clk (n : nat) : Q := if n <? 273 then 0%Q else 5%Q.
Lemma c_clk_mono n : (c_clk n <= c_clk (S n))%Q.
Proof. unfold c_clk. generalize 273. intros k. destruct (Nat.ltb_spec n k), (Nat.ltb_spec (S n) k); try lia; lra. Qed.
Definition c_ticks (n : nat) : Q := if n =? 0 then 0%Q else 5%Q.
Definition c_fit (s : fstate (tworld * stopper) (tduals * list Q) path) := timed_fit c_ticks (listing r_answers 1) c_args c_clk r_X [0; 1; 1] 3 s.
Definition c_again (o : option (fstate (tworld * stopper) (tduals * list Q) path)) := match o with Some s => match c_fit s with (s', Done tt) => Some s' | _ => None end | None => None end.
Definition c_new : option (fstate (tworld * stopper) (tduals * list Q) path) := match dtree_init c_args with Ok w => Some (new_estimator (w, new_stopper)) | Err _ => None end.
Definition c_calls : list nat := concat (repeat [1; 0; 1; 1; 1; 0; 1; 0; 1; 0; 1; 1; 0; 0; 0; 0; 1; 1; 0; 0; 0; 1; 1; 0; 0; 0; 0; 1; 0; 0] 11).
Definition c_tl (s : fstate (tworld * stopper) (tduals * list Q) path) := combine (map c_clk (seq 0 330)) (chop c_calls (f_trace s)).
Lemma c_life k s : Nat.iter k c_again c_new = Some s -> life c_ticks (listing r_answers 1) c_args c_clk s.
Proof.
  revert s. induction k as [|k IH]; intros s H; cbn [Nat.iter nat_rect] in H.
  - unfold c_new in H. destruct (dtree_init c_args) as [w|] eqn:Ew; [|discriminate]. injection H as <-. constructor. exact Ew.
  - change (c_again (Nat.iter k c_again c_new) = Some s) in H. unfold c_again in H at 1. destruct (Nat.iter k c_again c_new) as [s0|] eqn:E0; [|discriminate].
    destruct (c_fit s0) as [s1 [[]| |]] eqn:E1; try discriminate. injection H as <-. eapply trained; [apply IH; reflexivity|exact E1].
Qed.

(** The bound is not one for a classifier trained more than once: time_spent_master_ starts anew in every fit, cut_gen_time never does.  After the eleventh training
    of this estimator more time is reported for cuts than for the master problem. *)
Theorem C86_refit_refuted : exists ticks sv A clk s, life ticks sv A clk s /\ right_answers (SpecTreeTrain.fit_setup A r_X [0; 1; 1]) sv /\
  (forall n, clk n <= clk (S n))%Q /\ (forall n, ticks n <= ticks (S n))%Q /\
  (exists tl : timeline, f_tick s = length tl /\ map fst tl = map clk (seq 0 (length tl)) /\ concat (map snd tl) = f_trace s /\ Forall (fun qe => alone (snd qe)) tl /\ one_clock tl) /\
  (f_tmaster s < cut_gen_time s)%Q.
Proof.
  assert (V : match Nat.iter 11 c_again c_new with
              | Some s => Some (f_tick s =? 330, Qred (f_tmaster s), Qred (cut_gen_time s), clockb (c_tl s), forallb (fun qe => aloneb (snd qe)) (c_tl s), length (f_trace s) =? 143)
              | None => None end = Some (true, 0%Q, 5%Q, true, true, true)) by (vm_compute; reflexivity).
  destruct (Nat.iter 11 c_again c_new) as [s|] eqn:E; [|discriminate V]. apply six in V. destruct V as (V1 & V2 & V3 & V4 & V5 & V6). apply Nat.eqb_eq in V1. apply Nat.eqb_eq in V6.
  assert (V7 : map fst (c_tl s) = map c_clk (seq 0 330)) by (unfold c_tl; rewrite fst_combine; [reflexivity|rewrite chop_length, map_length, seq_length; reflexivity]).
  assert (V8 : concat (map snd (c_tl s)) = f_trace s).
  { unfold c_tl. rewrite snd_combine by (rewrite chop_length, map_length, seq_length; reflexivity). apply chop_concat. rewrite V6. reflexivity. }
  assert (V9 : length (c_tl s) = 330) by (rewrite <- (map_length fst), V7, map_length; apply seq_length).
  exists c_ticks, (listing r_answers 1), c_args, c_clk, s. split; [apply (c_life 11 s E)|]. split; [apply (listing_right (SpecTreeTrain.fit_setup r_args r_X [0; 1; 1])), (SpecTreeTrain.tr_setup _ _ _ r_trainable)|].
  split; [exact c_clk_mono|].
  split; [intros n; unfold c_ticks; destruct n; cbn; lra|].
  split; [exists (c_tl s); rewrite V9; split; [exact V1|]; split; [exact V7|]; split; [exact V8|]; split; [apply aloneb_ok; exact V5|apply clockb_ok; exact V4]|].
  rewrite <- (Qred_correct (f_tmaster s)), <- (Qred_correct (cut_gen_time s)), V2, V3. lra.
Qed.
Print Assumptions C86_refit_refuted.

(** One training with eleven iterations: the rows are looked at in the tenth, twice. *)
Example C86_case : exists w s', dtree_init busy_args = Ok w /\
  timed_fit (fun n => inject_Z (Z.of_nat n)) busy_sv busy_args (wd_fit_clock fast) (wd_X fast) (wd_y fast) 19 (new_estimator (w, new_stopper)) = (s', Done tt) /\
  count is_solve (f_trace s') = 11 /\ readings (f_trace s') = [0; 1; 2; 3]%Q /\ (cut_gen_time s' == 2)%Q.
Proof.
  assert (V : match dtree_init busy_args with
              | Ok w => match timed_fit (fun n => inject_Z (Z.of_nat n)) busy_sv busy_args (wd_fit_clock fast) (wd_X fast) (wd_y fast) 19 (new_estimator (w, new_stopper)) with
                        | (s, Done tt) => Some (count is_solve (f_trace s), readings (f_trace s), Qred (cut_gen_time s)) | _ => None end
              | Err _ => None end = Some (11, [0; 1; 2; 3]%Q, 2%Q)) by (vm_compute; reflexivity).
  destruct (dtree_init busy_args) as [w|] eqn:Ew; [|discriminate V]. destruct (timed_fit _ _ _ _ _ _ _ _) as [s [[]| |]] eqn:Ef; [|discriminate V|discriminate V].
  injection V as V1 V2 V3. exists w, s. split; [reflexivity|]. split; [exact Ef|]. split; [exact V1|]. split; [exact V2|]. rewrite <- (Qred_correct (cut_gen_time s)), V3. reflexivity.
Qed.

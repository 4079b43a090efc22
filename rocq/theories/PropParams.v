(** Claim C83: the parameters of the estimators as scikit-learn's get_params, set_params and clone handle them. *)
From Coq Require Import String.
From Verif Require Import Base Lp FitModel SpecFit BdrModel SpecBdr BdrFitModel BdrCertProofs BdrWitness PropFit PropBdrRun ScriptModel.
From Verif Require Import ParamsModel SpecParams ParamsProofs.
Open Scope nat_scope.

(** The reported values: after any history of set_params and fit, get_params gives for every parameter the value it was last set
    to, otherwise the constructor's; set_params raises exactly for an unknown name. *)
Theorem C83_get_params : forall o h n,
  map fst (rule_params o) = rule_names
  /\ value_of n (fold_left perform h o) = match last_value n (accepted_in h) with Some v => Some v | None => value_of n o end.
Proof. intros o h n. split; [reflexivity|apply history_values]. Qed.
Print Assumptions C83_get_params.
Theorem C83_set_params_result : forall l o,
  (snd (set_params l o) = Ok tt <-> forall x, In x l -> keyword x <> None) /\ (snd (set_params l o) <> Ok tt -> snd (set_params l o) = Err ValueError).
Proof.
  intros l o. rewrite set_params_result. destruct (forallb _ l) eqn:EF.
  - rewrite forallb_forall in EF. split; [split; [|reflexivity]|congruence]. intros _ x Hx HN. specialize (EF x Hx). rewrite HN in EF. discriminate.
  - split; [split; [discriminate|]|reflexivity]. intros H. exfalso. assert (ET : forallb (fun x => match keyword x with Some _ => true | None => false end) l = true).
    { apply forallb_forall. intros x Hx. specialize (H x Hx). destruct (keyword x); [reflexivity|congruence]. } congruence.
Qed.
Print Assumptions C83_set_params_result.

(** Of the values set after construction, fit only reads max_iterations and how many entries subproblem_params has. *)
Theorem C83_read_by_fit : forall sv clk X y fuel l o, let o' := fst (set_params l o) in
  ra_iterations (ro_args o') = ra_iterations (ro_args o) -> shape o' = shape o ->
  ro_state (fst (rule_fit sv clk X y fuel o')) = ro_state (fst (rule_fit sv clk X y fuel o))
  /\ snd (rule_fit sv clk X y fuel o') = snd (rule_fit sv clk X y fuel o).
Proof. intros sv clk X y fuel l o o' HI HS. destruct (set_params_rest l o) as (A & B & C & D). apply rule_fit_same; assumption. Qed.
Print Assumptions C83_read_by_fit.
(** In particular setting C, p, the solver names or the parameter strings changes neither the training nor the predictions. *)
Theorem C83_ignored : forall sv clk X y fuel l o, Forall built_in l ->
  let r := rule_fit sv clk X y fuel o in let r' := rule_fit sv clk X y fuel (fst (set_params l o)) in
  snd (set_params l o) = Ok tt /\ snd r' = snd r /\ ro_state (fst r') = ro_state (fst r)
  /\ forall (L : Type) (classes : list L) Xs, rule_predict classes (fst r') Xs = rule_predict classes (fst r) Xs.
Proof.
  intros sv clk X y fuel l o HB r r'. destruct (set_params_built_in l o HB) as (A & B & C).
  destruct (C83_read_by_fit sv clk X y fuel l o B) as (D & E). { unfold shape. rewrite C. reflexivity. }
  split; [exact A|]. split; [exact E|]. split; [exact D|]. intros L classes Xs. unfold rule_predict. unfold r, r'. rewrite D. reflexivity.
Qed.
Print Assumptions C83_ignored.
(** Hence model selection over such parameters compares equal models. *)
Theorem C83_grid_search : forall L sv clk X y fuel (classes : list L) Xs base l1 l2, Forall built_in l1 -> Forall built_in l2 ->
  candidate sv clk X y fuel classes Xs base l1 = candidate sv clk X y fuel classes Xs base l2.
Proof.
  assert (K : forall L sv clk X y fuel (classes : list L) Xs base l, Forall built_in l ->
    candidate sv clk X y fuel classes Xs base l = candidate sv clk X y fuel classes Xs base []).
  { intros L sv clk X y fuel classes Xs base l HB. unfold candidate. destruct (clone base) as [o|e]; [|reflexivity].
    destruct (C83_ignored sv clk X y fuel l o HB) as (A & B & C & D). destruct (set_params l o) as [o1 r1]. cbn [fst snd] in *. subst r1. cbn [set_params].
    destruct (rule_fit sv clk X y fuel o1) as [o2 r2]. destruct (rule_fit sv clk X y fuel o) as [o3 r3]. cbn [fst snd] in *. subst r2.
    destruct r3; try reflexivity. rewrite D. reflexivity. }
  intros L sv clk X y fuel classes Xs base l1 l2 H1 H2. rewrite (K L sv clk X y fuel classes Xs base l1 H1). symmetry. apply K. exact H2.
Qed.
Print Assumptions C83_grid_search.
(** A maximum number of iterations set after construction is obeyed. *)
Theorem C83_iterations : forall sv clk X y fuel l o z t, value_of "max_iterations"%string (fst (set_params l o)) = Some (VInt z) -> (0 < z)%Z ->
  f_trace (ro_state (fst (rule_fit sv clk X y fuel (fst (set_params l o))))) = f_trace (ro_state o) ++ t ->
  (Z.of_nat (count is_solve t) <= z)%Z.
Proof.
  intros sv clk X y fuel l o z t HV Hz HT. destruct (set_params_rest l o) as (_ & _ & _ & ES). set (o' := fst (set_params l o)) in *.
  assert (EI : ra_iterations (ro_args o') = z) by (unfold value_of in HV; cbn in HV; congruence).
  pose proof (C08_iteration_cap _ _ _ (rule_env sv clk X y o') fuel (map Z.of_nat y) (ro_state o') t) as (H & _).
  - rewrite ES. unfold rule_fit in HT. destruct (fit (rule_env sv clk X y o') fuel (map Z.of_nat y) (ro_state o')) as [s r] eqn:EF. rewrite ES in EF.
    rewrite EF. exact HT.
  - cbn [rule_env max_iterations bdr_env bp_max_iterations] in H. rewrite EI in H. exact (H Hz).
Qed.
Print Assumptions C83_iterations.

(** A constructed object trains as BdrFitModel.v says with the values it was given, and a clone is a new object constructed from
    the values get_params gives at that time: what was set before cloning is used. *)
Theorem C83_constructed : forall sv clk X y fuel h a o, new_rule h a = Ok o ->
  (ro_state (fst (rule_fit sv clk X y fuel o)), snd (rule_fit sv clk X y fuel o)) = direct_fit sv clk X y fuel h a.
Proof. exact new_rule_fit. Qed.
Print Assumptions C83_constructed.
Theorem C83_clone : forall sv clk X y fuel o h c, let o' := fold_left perform h o in clone o' = Ok c ->
  (forall n, value_of n c = match last_value n (accepted_in h) with Some v => Some v | None => value_of n o end)
  /\ f_fitted (ro_state c) = false /\ ro_heuristic c = ro_heuristic o
  /\ (ro_state (fst (rule_fit sv clk X y fuel c)), snd (rule_fit sv clk X y fuel c)) = direct_fit sv clk X y fuel (ro_heuristic o) (ro_args c).
Proof.
  intros sv clk X y fuel o h c o' HC. unfold clone in HC. assert (EH : ro_heuristic o' = ro_heuristic o) by apply history_class.
  pose proof (new_rule_fit sv clk X y fuel _ _ _ HC) as HF. apply new_rule_ok in HC as (_ & E).
  assert (EA : ro_args c = ro_args o') by (rewrite E; reflexivity).
  split. { intros n. rewrite <- history_values. unfold value_of, rule_params. rewrite EA. reflexivity. }
  split; [rewrite E; reflexivity|]. split; [rewrite E; exact EH|]. rewrite EA, <- EH. exact HF.
Qed.
Print Assumptions C83_clone.
(** An object can be cloned exactly if subproblem_params has its constructor's shape. *)
Theorem C83_clonable : forall o, (exists c, clone o = Ok c) <-> shape o = rule_levels (ro_heuristic o).
Proof.
  intros o. unfold clone, new_rule. split.
  - intros (c & H). destruct (construct _ _) as [[]|] eqn:EC; [|discriminate]. apply construct_shape in EC. unfold shape. destruct (ro_heuristic o).
    + destruct EC as (a & b & ->). reflexivity.
    + destruct EC as (a & ->). reflexivity.
  - unfold shape. intros ->. destruct (ro_heuristic o); cbn; eauto.
Qed.
Print Assumptions C83_clonable.

(** What a user expects, that the learned rule respects the C that get_params reports, is false after set_params: *)
Local Open Scope string_scope.
Definition case_args : rule_args := mkArgs (-1) 2 1 "" "glop" "" "cbc" [[""]].
Local Close Scope string_scope.
Theorem C83_set_params_refuted : exists sv clk X y fuel o o' s rule,
  new_rule false case_args = Ok o /\ set_params [SetC 0] o = (o', Ok tt) /\ value_of "C"%string o' = Some (VInt 0)
  /\ (dataset 1 X y /\ exact_rmp 1 X y 2 1 (sv_lp (sv ("glop", "cbc")%string)) /\ exact_pricing 1 X y 2 (sv_pricing (sv ("glop", "cbc")%string))
      /\ exact_ip 1 X y 2 1 (sv_ip (sv ("glop", "cbc")%string)))
  /\ rule_fit sv clk X y fuel o' = (s, Done tt) /\ learned (ro_state s) = Some rule /\ (0 < Z.of_nat (nsum complexity rule))%Z.
Proof.
  pose (sv := fun _ : string * string => tiny_solvers). pose (clk := fun _ : nat => 0%Q).
  destruct (new_rule false case_args) as [o|] eqn:EN; [|discriminate].
  pose (o' := fst (set_params [SetC 0] o)). pose (s := fst (rule_fit sv clk tiny_X tiny_y 2 o')).
  exists sv, clk, tiny_X, tiny_y, 2, o, o', s, [[0]]. split; [reflexivity|]. apply new_rule_ok in EN as (_ & EN).
  split; [unfold o'; rewrite EN; reflexivity|]. split; [unfold o'; rewrite EN; reflexivity|].
  split. { split; [apply tiny_data|]. split; [apply (tiny_exact_rmp tiny_y None); auto|]. split; [apply (tiny_exact_pricing tiny_y None); auto|apply (tiny_exact_ip tiny_y None); auto]. }
  assert (V : snd (rule_fit sv clk tiny_X tiny_y 2 o') = Done tt /\ learned (ro_state s) = Some [[0]]).
  { unfold s, o', sv, clk. rewrite EN. split; vm_compute; reflexivity. }
  destruct V as (V1 & V2). split; [unfold s; rewrite <- V1; apply surjective_pairing|]. split; [exact V2|reflexivity].
Qed.
Print Assumptions C83_set_params_refuted.

(** The tree classifier: of its parameters two are not kept and one is replaced; so get_params and clone raise for every object, whatever other
    attributes it has got since, and set_params changes nothing. *)
Local Open Scope string_scope.
Theorem C83_tree_attributes : forall V (arg built : string -> V) n, In n tree_names ->
  getattr V n (tree_attributes V arg built) =
    if String.eqb n "use_old_sp" then Err AttributeError
    else if String.eqb n "master_solver_type" then Err AttributeError
    else if String.eqb n "subproblem_params" then Ok (built n) else Ok (arg n).
Proof. intros V arg built n H. cbn in H. repeat (destruct H as [<-|H]; [reflexivity|]). contradiction. Qed.
Print Assumptions C83_tree_attributes.
Theorem C83_tree_refuted : forall V (arg built : string -> V) later,
  (forall n v, In (n, v) later -> n <> "use_old_sp" /\ n <> "master_solver_type") ->
  let d := (later ++ tree_attributes V arg built)%list in
  get_params V tree_names d = Err AttributeError
  /\ forall l, l <> [] -> set_params_of V tree_names l d = (d, Err AttributeError).
Proof.
  intros V arg built later HL d.
  assert (G : forall n, n = "use_old_sp" \/ n = "master_solver_type" -> getattr V n d = Err AttributeError).
  { intros n Hn. assert (E : getattr V n d = getattr V n (tree_attributes V arg built)).
    { unfold d. clear d. induction later as [|[m v] later IH]; [reflexivity|]. cbn [app getattr]. destruct (String.eqb n m) eqn:E.
      - apply String.eqb_eq in E. subst m. destruct (HL n v (or_introl eq_refl)) as (A & B). destruct Hn; congruence.
      - apply IH. intros n' v' H. apply (HL n' v'). right. exact H. }
    rewrite E. destruct Hn as [->| ->]; reflexivity. }
  assert (P : get_params V tree_names d = Err AttributeError).
  { assert (K : forall (f : string -> res (string * V)) l, (forall n, In n l -> forall e, f n = Err e -> e = AttributeError) -> (exists n, In n l /\ f n = Err AttributeError) ->
      map_res f l = Err AttributeError).
    { intros f l. induction l as [|x l IH]; intros H (n & Hn & E); [destruct Hn|]. cbn [map_res]. destruct (f x) as [v|e] eqn:EX.
      - cbn [bind]. destruct Hn as [->|Hn]; [congruence|]. rewrite IH; [reflexivity| |eauto]. intros m Hm. apply H. right. exact Hm.
      - cbn [bind]. rewrite (H x (or_introl eq_refl) e EX). reflexivity. }
    apply K.
    - intros n _ e. assert (A : forall d', getattr V n d' = Err e -> e = AttributeError).
      { induction d' as [|[m v] d' IH]; cbn; [congruence|]. destruct (String.eqb n m); [discriminate|exact IH]. }
      destruct (getattr V n d) eqn:E; cbn [bind]; [discriminate|]. intros H. inversion H. subst. exact (A d E).
    - exists "use_old_sp". split; [vm_compute; tauto|]. rewrite G by auto. reflexivity. }
  split; [exact P|]. intros [|x l] Hl; [congruence|]. unfold set_params_of. rewrite P. reflexivity.
Qed.
Print Assumptions C83_tree_refuted.

(** Cases: with one iteration set after construction the run stops after one; the grid of C = 0 and C = 2 gives one model; a clone made after
    setting C has the new C in its model. *)
Local Close Scope string_scope.
Example C83_case : exists o, new_rule false case_args = Ok o
  /\ Forall built_in [SetC 0; SetRmpSolver "scip"%string]
  /\ f_iter (ro_state (fst (rule_fit (fun _ => tiny_solvers) (fun _ => 0%Q) tiny_X tiny_y 5 o))) = 2
  /\ f_iter (ro_state (fst (rule_fit (fun _ => tiny_solvers) (fun _ => 0%Q) tiny_X tiny_y 5 (fst (set_params [SetC 0; SetIterations 1] o))))) = 1
  /\ candidate (fun _ => tiny_solvers) (fun _ => 0%Q) tiny_X tiny_y 5 [10; 20] tiny_X o [SetC 0; SetRmpSolver "scip"%string] = Done [20; 10]
  /\ (exists c, clone (fst (set_params [SetC 0] o)) = Ok c /\ bm_C (bw_master (f_world (ro_state c))) = 0%Z)
  /\ snd (rule_fit (fun _ => tiny_solvers) (fun _ => 0%Q) tiny_X tiny_y 5 (fst (set_params [SetSubParams []] o))) = Raised IndexError.
Proof.
  destruct (new_rule false case_args) as [o|] eqn:EN; [|discriminate]. exists o. split; [reflexivity|]. apply new_rule_ok in EN as (_ & ->).
  split. { repeat constructor. }
  split. { vm_compute. reflexivity. } split. { vm_compute. reflexivity. } split. { vm_compute. reflexivity. }
  split. { eexists. split; reflexivity. } vm_compute. reflexivity.
Qed.

(** C76: cut generation is complete up to the rounding of the objective. *)
From Coq Require Import Qround.
From Verif Require Import Base Lp LpProofs LpCheck TreeModel SpecTree TreeGeoProofs TreePathProofs TreeLpBuild TreeInvProofs TreeFormProofs
  TreeGenProofs TreeBuildProofs TreeCutProofs SpecTreeRun TreeRunProofs TreeMasterProofs SpecTreeLp TreeLpProofs SpecCut PropTree PropTreeMaster PropTreeLp.
Open Scope nat_scope.

Lemma sample_possible splits xr : possible splits (goes_left splits xr).
Proof.
  intros i j s t Hi Hj Hf Ht. unfold goes_left. rewrite Hi, Hj. unfold sample_left. rewrite <- Hf. rewrite !Qle_bool_iff. intros H. lra.
Qed.
Lemma floor_scale q : (inject_Z (Qfloor (q * inject_Z 1000000)) <= q * 1000000)%Q /\
  (q * 1000000 <= inject_Z (Qfloor (q * inject_Z 1000000)) + 1)%Q.
Proof.
  pose proof (Qfloor_le (q * inject_Z 1000000)) as H1. pose proof (Qlt_floor (q * inject_Z 1000000)) as H2. split.
  - exact H1.
  - rewrite inject_Z_plus in H2. change (inject_Z 1) with 1%Q in H2. change (inject_Z 1000000) with (1000000)%Q in *. lra.
Qed.
(** Nothing collected: no reported solution is above the threshold. *)
Lemma nothing_collected n coeffs sols : forall cuts, fold_left (on_cut_solution n coeffs) sols cuts = [] -> cuts = [] /\ forall pz, In pz sols ->
  (qsum (fun i => if fst pz i then nth i coeffs 0 else 0) (seq 0 (length coeffs)) <= 1 + teps)%Q.
Proof.
  induction sols as [|a sols IH]; intros cuts; cbn [fold_left].
  - intros ->. split; auto. intros pz [].
  - intros H. destruct (IH _ H) as [H1 H2]. unfold on_cut_solution in H1. cbn zeta in H1. destruct (Qltb _ _) eqn:E.
    + exfalso. destruct cuts; discriminate H1.
    + split; auto. intros pz [<-|Hp]; auto. apply Qltb_false in E. exact E.
Qed.
Lemma cut_value_scaled (coeffs : list Q) (p : nat -> bool) : let v := qsum (fun i => if p i then nth i coeffs 0%Q else 0%Q) (seq 0 (length coeffs)) in
  let c := cut_value (map (fun q => Qfloor (q * inject_Z 1000000)) coeffs) p in
  (c <= v * 1000000)%Q /\ (v * 1000000 <= c + inject_Z (Z.of_nat (length coeffs)))%Q.
Proof.
  cbn zeta. unfold cut_value. rewrite map_length. rewrite <- qsum_scale_r.
  assert (E : forall i, In i (seq 0 (length coeffs)) -> nth i (map (fun q => Qfloor (q * inject_Z 1000000)) coeffs) 0%Z = Qfloor (nth i coeffs 0%Q * inject_Z 1000000)).
  { intros i Hi. apply in_seq in Hi. rewrite (nth_indep _ 0%Z (Qfloor (0%Q * inject_Z 1000000))) by (rewrite map_length; lia). apply (List.map_nth (fun q => Qfloor (q * inject_Z 1000000))). }
  split.
  - apply qsum_le. intros i Hi. rewrite E by auto. pose proof (floor_scale (nth i coeffs 0%Q)). destruct (p i); lra.
  - assert (Hn : (inject_Z (Z.of_nat (length coeffs)) == qsum (fun _ => 1) (seq 0 (length coeffs)))%Q).
    { rewrite qsum_const, seq_length. lra. }
    rewrite Hn, <- qsum_plus. apply qsum_le. intros i Hi. rewrite E by auto. pose proof (floor_scale (nth i coeffs 0%Q)). destruct (p i); lra.
Qed.

Lemma complete_inv u kinds cuts s x sols s' : valid_setup u -> uinv u kinds cuts s -> stored x s -> optimal_for (tm_cutmodel s) sols ->
  add_cuts sols s = Ok ([], s') ->
  forall z v, possible (su_splits u) z -> path_weight u z (tm_paths s) x v ->
    (v <= 1 + (inject_Z (Z.of_nat (length (tm_paths s))) + 1) * teps)%Q.
Proof.
  intros V H Hx Ho E z v Hz (ps & Nps & Hps & Ev).
  pose proof (lookup_all _ _ Hx (ti_pvars _ _ _ _ _ _ _ H)) as Hl. unfold add_cuts in E. rewrite Hl in E. cbn [bind] in E.
  set (coeffs := map (fun p => x (p_id p)) (tm_paths s)) in *. fold coeffs in E.
  set (scaled := map (fun q => Qfloor (q * inject_Z 1000000)) coeffs) in *.
  assert (Hc : fold_left (on_cut_solution (cm_splits (tm_cutmodel s)) coeffs) (sols (tm_cutmodel s) scaled) [] = []).
  { destruct (fold_left _ _ _) as [|c l] eqn:Ef; auto. exfalso. cbn [length Nat.eqb] in E.
    destruct (for_each _ _ (tm_splits _)) as [sp|]; cbn [bind] in E; [|discriminate]. destruct (for_each _ _ _) as [[[m cs] ad]|]; cbn [bind] in E; discriminate. }
  destruct (nothing_collected _ _ _ _ Hc) as [_ Hn]. destruct (Ho scaled) as (pz & Hin & Hbest).
  { unfold scaled, coeffs. rewrite !map_length, (ti_cm_paths _ _ _ _ _ _ _ H), map_length. reflexivity. } specialize (Hn pz Hin).
  set (pz' := (fun i => match nth_error (tm_paths s) i with Some p => followsb (create_leaf (p_leaf p) (su_depth u)) z p | None => false end, z)).
  assert (Hsol : cut_solution (tm_cutmodel s) pz').
  { split.
    - intros i lits Hi. rewrite (ti_cm_paths _ _ _ _ _ _ _ H), nth_error_map in Hi. cbn [fst snd pz']. unfold pz'. cbn [fst snd].
      destruct (nth_error (tm_paths s) i) as [p|]; [|discriminate]. injection Hi as <-. symmetry. apply lits_followsb.
    - intros i j Hij. apply (ti_cm_imps _ _ _ _ _ _ _ H) in Hij. destruct Hij as (a & b & Ea & Eb & Ef & Et). cbn [snd pz']. unfold pz'. cbn [snd]. apply (Hz i j a b); auto. }
  specialize (Hbest pz' Hsol). destruct (cut_value_scaled coeffs (fst pz)) as [C1 _]. destruct (cut_value_scaled coeffs (fst pz')) as [_ C2].
  fold scaled in C1, C2. set (w := qsum _ _) in Hn. fold w in C1. set (w' := qsum (fun i => if fst pz' i then _ else _) _) in C2.
  assert (Ew : (w' == v)%Q).
  { rewrite Ev. unfold w', coeffs. rewrite map_length.
    assert (P : Permutation (filter (fun p => followsb (create_leaf (p_leaf p) (su_depth u)) z p) (tm_paths s)) ps).
    { pose proof (after_formulated u _ _ _ V H) as F. apply NoDup_Permutation; auto.
      - apply NoDup_filter. apply (NoDup_map_inv' p_id), (fm_path_ids _ _ _ _ _ _ _ _ _ _ F).
      - intros p. rewrite filter_In, followsb_iff, Hps. pose proof (ti_plain _ _ _ _ _ _ _ H) as Hpl. rewrite Forall_forall in Hpl. split.
        + intros [Hp Hf]. split; auto. exists (create_leaf (p_leaf p) (su_depth u)). split; auto. apply complete_leaves_nth. apply Hpl. auto.
        + intros [Hp (lf & El & Hf)]. split; auto. unfold su_leaves in El. rewrite complete_leaves_nth in El by (apply Hpl; auto). injection El as <-. auto. }
    rewrite <- (qsum_perm _ _ _ P), qsum_filter. unfold pz'. cbn [fst].
    apply qsum_seq. intros i p Hp. cbn [Nat.add]. rewrite Hp.
    assert (En : nth_error (map (fun p => x (p_id p)) (tm_paths s)) i = Some (x (p_id p))) by (rewrite nth_error_map, Hp; reflexivity).
    rewrite (nth_error_nth _ _ 0%Q En). reflexivity. }
  assert (Elen : length coeffs = length (tm_paths s)) by apply map_length. rewrite Elen in C2. unfold teps in *. lra.
Qed.

(** C76: if CP-SAT solves the cut model to optimality and add_cuts adds nothing, then every possible row follows paths with a total LP
    value of at most 1 + 1e-6 * (number of paths + 1). *)
Theorem C76_complete : forall u ops cuts s x sols s', valid_setup u -> after u ops cuts s -> sound_cuts sols -> optimal_for (tm_cutmodel s) sols ->
  add_cuts sols (store_lp_solution x s) = Ok ([], s') ->
  forall z v, possible (su_splits u) z -> path_weight u z (tm_paths s) x v ->
    (v <= 1 + (inject_Z (Z.of_nat (length (tm_paths s))) + 1) * teps)%Q.
Proof.
  intros u ops cuts s x sols s' V A Hs Ho E. destruct (after_inv u ops cuts s V A) as (kinds & H & _).
  destruct (tinv_store _ _ _ _ _ _ _ x H) as [H1 Hx]. exact (complete_inv u kinds cuts (store_lp_solution x s) x sols s' V H1 Hx Ho E).
Qed.
Print Assumptions C76_complete.

(** In particular every sample, seen or not. *)
Theorem C76_samples : forall u ops cuts s x sols s', valid_setup u -> after u ops cuts s -> sound_cuts sols -> optimal_for (tm_cutmodel s) sols ->
  add_cuts sols (store_lp_solution x s) = Ok ([], s') ->
  forall xr v, path_weight u (goes_left (su_splits u) xr) (tm_paths s) x v ->
    (v <= 1 + (inject_Z (Z.of_nat (length (tm_paths s))) + 1) * teps)%Q.
Proof. intros u ops cuts s x sols s' V A Hs Ho E xr v. apply (C76_complete u ops cuts s x sols s' V A Hs Ho E). apply sample_possible. Qed.
Print Assumptions C76_samples.

(** An exact CP-SAT: the rows are enumerated. *)
Fixpoint all_rows (n : nat) : list (list bool) := match n with O => [[]] | S n' => map (cons true) (all_rows n') ++ map (cons false) (all_rows n') end.
Definition row_solution (cm : cutmodel) (z : list bool) : (nat -> bool) * (nat -> bool) :=
  (fun i => match nth_error (cm_paths cm) i with Some lits => forallb (lit_holds (fun k => nth k z false)) lits | None => false end, fun k => nth k z false).
Definition cut_solutionb (cm : cutmodel) (z : list bool) : bool := forallb (fun ij => implb (nth (fst ij) z false) (nth (snd ij) z false)) (cm_imps cm).
Definition enumerate_cuts (cm : cutmodel) (objective : list Z) : list ((nat -> bool) * (nat -> bool)) :=
  map (row_solution cm) (filter (cut_solutionb cm) (all_rows (cm_splits cm))).
Definition best (f : (nat -> bool) * (nat -> bool) -> Q) := fix go a l :=
  match l with [] => a | b :: l' => go (if Qltb (f a) (f b) then b else a) l' end.
(** One that reports only its first best solution. *)
Definition best_cut (cm : cutmodel) (objective : list Z) : list ((nat -> bool) * (nat -> bool)) :=
  match enumerate_cuts cm objective with [] => [] | a :: l => [best (fun pz => cut_value objective (fst pz)) a l] end.

Lemma best_ok f : forall l a, (best f a l = a \/ In (best f a l) l) /\ (f a <= f (best f a l))%Q /\ forall b, In b l -> (f b <= f (best f a l))%Q.
Proof.
  induction l as [|b l IH]; intros a; cbn [best].
  - split; auto. split; [lra|]. intros b [].
  - fold (best f). destruct (IH (if Qltb (f a) (f b) then b else a)) as (H1 & H2 & H3). destruct (Qltb (f a) (f b)) eqn:E.
    + apply Qltb_true in E. split; [destruct H1 as [->|]; cbn [In]; auto|]. split; [lra|]. intros c [<-|Hc]; auto.
    + apply Qltb_false in E. split; [destruct H1 as [->|]; cbn [In]; auto|]. split; [lra|]. intros c [<-|Hc]; auto. lra.
Qed.
Lemma all_rows_in n : forall z, length z = n -> In z (all_rows n).
Proof.
  induction n as [|n IH]; intros [|b z] H; try discriminate; cbn [all_rows]; [left; reflexivity|]. injection H as H. apply in_or_app.
  destruct b; [left|right]; apply in_map; apply IH; auto.
Qed.
Lemma enumerate_sound : sound_cuts enumerate_cuts.
Proof.
  intros cm obj. apply Forall_forall. intros pz Hp. apply in_map_iff in Hp. destruct Hp as (z & <- & Hz). apply filter_In in Hz. destruct Hz as [_ Hz].
  split; cbn [row_solution fst snd].
  - intros i lits Hi. rewrite Hi. reflexivity.
  - intros i j Hij. unfold cut_solutionb in Hz. rewrite forallb_forall in Hz. specialize (Hz _ Hij). cbn in Hz. intros E. rewrite E in Hz. exact Hz.
Qed.
Definition closed_model (cm : cutmodel) : bool :=
  forallb (forallb (fun l => fst l <? cm_splits cm)) (cm_paths cm) && forallb (fun ij => (fst ij <? cm_splits cm) && (snd ij <? cm_splits cm)) (cm_imps cm).
Lemma enumerate_all cm obj pz : closed_model cm = true -> length obj = length (cm_paths cm) -> cut_solution cm pz ->
  exists pz', In pz' (enumerate_cuts cm obj) /\ (cut_value obj (fst pz') == cut_value obj (fst pz))%Q.
Proof.
  intros C L [Hp Hi]. apply andb_true_iff in C. destruct C as [C1 C2]. rewrite forallb_forall in C1, C2.
  set (z := map (snd pz) (seq 0 (cm_splits cm))). exists (row_solution cm z).
  assert (Hz : forall k, k < cm_splits cm -> nth k z false = snd pz k).
  { intros k Hk. apply nth_error_nth. unfold z. apply nth_error_Some_map_seq. exact Hk. }
  split.
  - apply in_map. apply filter_In. split; [apply all_rows_in; unfold z; rewrite map_length, seq_length; reflexivity|].
    apply forallb_forall. intros [i j] Hij. specialize (C2 _ Hij). cbn in C2. apply andb_true_iff in C2. destruct C2 as [Ci Cj]. apply Nat.ltb_lt in Ci, Cj.
    cbn. rewrite !Hz by auto. destruct (snd pz i) eqn:E; auto. cbn. apply (Hi i j); auto.
  - unfold cut_value. apply qsum_ext. intros i Hin. apply in_seq in Hin. cbn [row_solution fst].
    destruct (nth_error (cm_paths cm) i) as [lits|] eqn:E; [|apply nth_error_None in E; lia]. rewrite (Hp i lits E).
    assert (El : forallb (lit_holds (fun k => nth k z false)) lits = forallb (lit_holds (snd pz)) lits).
    { pose proof (C1 lits (nth_error_In _ _ E)) as Cl. rewrite forallb_forall in Cl. clear -Cl Hz. induction lits as [|l lits IH]; auto. cbn [forallb].
      rewrite IH by (intros l' H; apply Cl; right; auto). unfold lit_holds. rewrite Hz; auto. specialize (Cl l (or_introl eq_refl)). apply Nat.ltb_lt in Cl. exact Cl. }
    rewrite El. reflexivity.
Qed.
Lemma best_cut_sound : sound_cuts best_cut.
Proof.
  intros cm obj. unfold best_cut. pose proof (enumerate_sound cm obj) as H. destruct (enumerate_cuts cm obj) as [|a l]; constructor; [|constructor].
  rewrite Forall_forall in H. apply H. destruct (best_ok (fun pz => cut_value obj (fst pz)) l a) as [[E|E] _]; [left; auto|right; auto].
Qed.
Lemma best_cut_optimal cm : closed_model cm = true -> optimal_for cm best_cut.
Proof.
  intros C obj L. unfold best_cut.
  assert (Hall : forall pz, cut_solution cm pz -> exists pz', In pz' (enumerate_cuts cm obj) /\ (cut_value obj (fst pz') == cut_value obj (fst pz))%Q)
    by (intros pz; apply enumerate_all; auto).
  destruct (enumerate_cuts cm obj) as [|a l] eqn:E.
  - exfalso. destruct (Hall (fun i => match nth_error (cm_paths cm) i with Some lits => forallb (lit_holds (fun _ => true)) lits | None => false end, fun _ => true)) as (pz & [] & _).
    split; auto. cbn [fst snd]. intros i lits ->. reflexivity.
  - exists (best (fun pz => cut_value obj (fst pz)) a l). split; [left; reflexivity|]. intros pz Hp. destruct (Hall pz Hp) as (pz' & Hin & Ev).
    rewrite <- Ev. destruct (best_ok (fun pz => cut_value obj (fst pz)) l a) as (_ & H1 & H2). destruct Hin as [<-|Hin]; auto.
Qed.

Lemma weight_of u ops cuts s z x : valid_setup u -> after u ops cuts s ->
  path_weight u z (tm_paths s) x (qsum (fun p => x (p_id p)) (filter (fun p => followsb (create_leaf (p_leaf p) (su_depth u)) z p) (tm_paths s))).
Proof.
  intros V A. destruct (after_inv u ops cuts s V A) as (kinds & H & _). pose proof (after_formulated u _ _ _ V H) as F.
  exists (filter (fun p => followsb (create_leaf (p_leaf p) (su_depth u)) z p) (tm_paths s)). split; [|split; [|reflexivity]].
  - apply NoDup_filter. apply (NoDup_map_inv' p_id), (fm_path_ids _ _ _ _ _ _ _ _ _ _ F).
  - intros p. rewrite filter_In, followsb_iff. pose proof (ti_plain _ _ _ _ _ _ _ H) as Hpl. rewrite Forall_forall in Hpl. split.
    + intros [Hp Hf]. split; auto. exists (create_leaf (p_leaf p) (su_depth u)). split; auto. apply complete_leaves_nth. apply Hpl. auto.
    + intros [Hp (lf & El & Hf)]. split; auto. unfold su_leaves in El. rewrite complete_leaves_nth in El by (apply Hpl; auto). injection El as <-. auto.
Qed.

(** The solution that gives the value 1/2 to all eight paths: no cut is found; every sample has weight 1, for example (5, 5). *)
Example C76_case : exists s s', after (ex_setup false) ex_cols [] s /\ optimal_for (tm_cutmodel s) best_cut /\ lp_feasible (tm_lp s) ex_half /\
  add_cuts best_cut (store_lp_solution ex_half s) = Ok ([], s') /\ path_weight (ex_setup false) (goes_left ex_splits [5; 5]%Q) (tm_paths s) ex_half 1.
Proof.
  set (follow := fun (s : tmaster) => qsum (fun p => ex_half (p_id p)) (filter (fun p => followsb (create_leaf (p_leaf p) 2) (goes_left ex_splits [5; 5]%Q) p) (tm_paths s))).
  assert (Vs : match run_setup (ex_setup false) ex_cols with
              | Ok (cuts, s) => match add_cuts best_cut (store_lp_solution ex_half s) with
                 | Ok (new, s') => Some (cuts, new, closed_model (tm_cutmodel s), feasibleb (tm_lp s) ex_half, Qeq_bool (follow s) 1)
                 | Err _ => None end
              | Err _ => None end = Some ([], [], true, true, true)) by (vm_compute; reflexivity).
  destruct (run_setup (ex_setup false) ex_cols) as [[cuts s]|] eqn:E; [|discriminate Vs].
  destruct (add_cuts best_cut (store_lp_solution ex_half s)) as [[new s']|] eqn:Ea; [|discriminate Vs]. injection Vs as -> -> H1 H2 H3.
  assert (A : after (ex_setup false) ex_cols [] s).
  { apply run_setup_after; [|exact E]. destruct C39_case as (s1 & dr & rows & (Hl & _) & _). exact Hl. }
  exists s, s'. split; [exact A|]. split; [apply best_cut_optimal; exact H1|]. split; [apply feasibleb_ok; exact H2|]. split; [exact Ea|].
  destruct (weight_of (ex_setup false) ex_cols [] s (goes_left ex_splits [5; 5]%Q) ex_half (ex_valid false) A) as (ps & N & P & Q).
  exists ps. split; [exact N|]. split; [exact P|]. rewrite <- Q. symmetry. apply Qeq_bool_iff. exact H3.
Qed.

(** The rounding term is needed: the weights are rounded down to multiples of 1e-6, so that an optimal CP-SAT may prefer a row that
    satisfies its cut to one that violates it by more than 1e-6. *)
Definition uneven_x : nat -> Q := fun j => if j =? 0 then 1%Q else if (j =? 3) || (j =? 13) then (5000009 # 10000000)%Q else 0%Q.
Theorem C76_rounding_needed : exists u ops s x sols s' xr v, valid_setup u /\ after u ops [] s /\ sound_cuts sols /\ optimal_for (tm_cutmodel s) sols /\
  (forall j, (0 <= x j)%Q) /\ add_cuts sols (store_lp_solution x s) = Ok ([], s') /\ path_weight u (goes_left (su_splits u) xr) (tm_paths s) x v /\ (1 + teps < v)%Q.
Proof.
  set (follow := fun (s : tmaster) => qsum (fun p => uneven_x (p_id p)) (filter (fun p => followsb (create_leaf (p_leaf p) 2) (goes_left ex_splits [5; 5]%Q) p) (tm_paths s))).
  assert (Vs : match run_setup (ex_setup false) ex_cols with
              | Ok (cuts, s) => match add_cuts best_cut (store_lp_solution uneven_x s) with
                 | Ok (new, s') => Some (cuts, new, closed_model (tm_cutmodel s), Qltb (1 + teps) (follow s))
                 | Err _ => None end
              | Err _ => None end = Some ([], [], true, true)) by (vm_compute; reflexivity).
  destruct (run_setup (ex_setup false) ex_cols) as [[cuts s]|] eqn:E; [|discriminate Vs].
  destruct (add_cuts best_cut (store_lp_solution uneven_x s)) as [[new s']|] eqn:Ea; [|discriminate Vs]. injection Vs as -> -> H1 H3.
  assert (A : after (ex_setup false) ex_cols [] s).
  { apply run_setup_after; [|exact E]. destruct C39_case as (s1 & dr & rows & (Hl & _) & _). exact Hl. }
  exists (ex_setup false), ex_cols, s, uneven_x, best_cut, s', [5; 5]%Q, (follow s). split; [apply ex_valid|]. split; [exact A|]. split; [exact best_cut_sound|].
  split; [apply best_cut_optimal; exact H1|]. split; [intros j; unfold uneven_x; destruct (j =? 0); [lra|]; destruct (_ || _); lra|]. split; [exact Ea|].
  split; [|apply Qltb_true; exact H3]. apply (weight_of (ex_setup false) ex_cols [] s (goes_left ex_splits [5; 5]%Q) uneven_x (ex_valid false) A).
Qed.
Print Assumptions C76_rounding_needed.

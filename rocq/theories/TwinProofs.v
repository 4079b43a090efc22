(** Lemmas for property C89. *)
From Verif Require Import Base Lp FitModel TunerModel SolveModel TreeModel TreePricingModel TreeFitModel.
From Verif Require Import SpecTwin RelProofs.
Open Scope nat_scope.

Lemma for_each_ext' {A S} (f g : A -> S -> res S) l : (forall a s, In a l -> f a s = g a s) -> forall s, for_each l f s = for_each l g s.
Proof.
  induction l as [|a l IH]; intros H s; cbn [for_each]; [reflexivity|]. rewrite (H a s (or_introl eq_refl)). destruct (g a s); cbn [bind]; [|reflexivity].
  apply IH. intros; apply H; right; auto.
Qed.
Lemma map_res_ext' {A B} (f g : A -> res B) l : (forall a, In a l -> f a = g a) -> map_res f l = map_res g l.
Proof.
  induction l as [|a l IH]; intros H; cbn [map_res]; [reflexivity|]. rewrite (H a (or_introl eq_refl)). destruct (g a); cbn [bind]; [|reflexivity].
  rewrite IH; [reflexivity|]. intros; apply H; right; auto.
Qed.
Lemma bind_ext {A B} (r : res A) (f g : A -> res B) : (forall a, r = Ok a -> f a = g a) -> bind r f = bind r g.
Proof. destruct r; cbn [bind]; auto. Qed.

Lemma Forall2_nth_intro {A B} (P : A -> B -> Prop) : forall l l', (forall i, match nth_error l i, nth_error l' i with Some a, Some b => P a b | None, None => True | _, _ => False end) -> Forall2 P l l'.
Proof.
  induction l as [|a l IH]; intros [|b l'] H; [constructor|destruct (H 0)|destruct (H 0)|]. constructor; [exact (H 0)|]. apply IH. intros i. exact (H (S i)).
Qed.

Section Twins.
Variables (splits0 splits0' : list split).
Hypothesis HT : twins splits0 splits0'.
Definition test (s : split) := (s_feature s, s_threshold s).
(** The current split lists: cuts may have been stored since. *)
Record now (l l' : list split) : Prop := {
  nw_fields : Forall2 (fun s s' => s' = with_test s (s_feature s') (s_threshold s')) l l';
  nw_test : map test l = map test splits0;
  nw_test' : map test l' = map test splits0'
}.
Definition R (x x' : sample) : Prop := same_sides splits0 splits0' x x'.

Lemma now_start : now splits0 splits0'.
Proof. split; auto. apply (tw_fields _ _ HT). Qed.
Lemma test_nth l l0 i s : map test l = map test l0 -> nth_error l i = Some s -> exists s0, nth_error l0 i = Some s0 /\ s_feature s0 = s_feature s /\ s_threshold s0 = s_threshold s.
Proof.
  intros E H. apply (f_equal (fun q => nth_error q i)) in E. rewrite !nth_error_map, H in E. destruct (nth_error l0 i) as [s0|]; [|discriminate].
  injection E as E1 E2. exists s0. auto.
Qed.
Lemma F2_nth {A B} (P : A -> B -> Prop) l l' : Forall2 P l l' -> forall i, match nth_error l i, nth_error l' i with Some a, Some b => P a b | None, None => True | _, _ => False end.
Proof. induction 1; intros [|i]; cbn; auto. apply IHForall2. Qed.
Lemma now_nth l l' i : now l l' ->
  (exists s s', nth_error l i = Some s /\ nth_error l' i = Some s' /\ s' = with_test s (s_feature s') (s_threshold s') /\ forall x x', R x x' -> side x s = side x' s') \/
  (nth_error l i = None /\ nth_error l' i = None).
Proof.
  intros [H1 H2 H3]. pose proof (F2_nth _ _ _ H1 i) as H. destruct (nth_error l i) as [s|] eqn:E, (nth_error l' i) as [s'|] eqn:E'; try contradiction; [|right; auto].
  left. exists s, s'. split; auto. split; auto. split; auto. intros x x' Hx.
  destruct (test_nth _ _ _ _ H2 E) as (a & Ea & A1 & A2). destruct (test_nth _ _ _ _ H3 E') as (b & Eb & B1 & B2).
  pose proof (F2_nth _ _ _ Hx i) as Hi. rewrite Ea, Eb in Hi. unfold side in *. rewrite A1, A2, B1, B2 in Hi. exact Hi.
Qed.
Lemma now_get l l' i : now l l' ->
  (exists s s', getitem l i = Ok s /\ getitem l' i = Ok s' /\ s' = with_test s (s_feature s') (s_threshold s') /\ forall x x', R x x' -> side x s = side x' s') \/
  (exists e, getitem l i = Err e /\ getitem l' i = Err e).
Proof.
  intros H. unfold getitem. destruct (now_nth l l' i H) as [(s & s' & -> & -> & E & Hx)|[-> ->]]; [left; exists s, s'; auto|right; eauto].
Qed.
Lemma now_length l l' : now l l' -> length l' = length l.
Proof. intros [H _ _]. symmetry. induction H; cbn; auto. Qed.
Lemma now_ids l l' : now l l' -> map s_id l' = map s_id l.
Proof. intros [H _ _]. induction H as [|a b l l' E H IH]; cbn [map]; [reflexivity|]. rewrite IH, E. reflexivity. Qed.

(** A sample with the feature of a split. *)
Lemma side_get x x' s s' : side x s = side x' s' ->
  (exists v v', getitem x (s_feature s) = Ok v /\ getitem x' (s_feature s') = Ok v' /\ Qle_bool v (s_threshold s) = Qle_bool v' (s_threshold s')) \/
  (exists e, getitem x (s_feature s) = Err e /\ getitem x' (s_feature s') = Err e).
Proof.
  unfold side, getitem. destruct (nth_error x _), (nth_error x' _); intros E; try discriminate; [left|right; eauto]. injection E as E. eauto.
Qed.
Lemma ltb_le a b : Qltb a b = negb (Qle_bool b a).
Proof. reflexivity. Qed.

(** * Functions of the splits *)
Lemma satisfied_twin (left right : split -> list nat) p lf l l' : (forall s f t, left (with_test s f t) = left s) -> (forall s f t, right (with_test s f t) = right s) ->
  now l l' -> get_satisfied left right p lf l' = get_satisfied left right p lf l.
Proof.
  intros HL HR H. unfold get_satisfied. apply bind_ext. intros i0 _.
  assert (B : forall n s s', s' = with_test s (s_feature s') (s_threshold s') -> (if memb n (l_left lf) then left s' else right s') = (if memb n (l_left lf) then left s else right s)).
  { intros n s s' E. rewrite E, HL, HR. reflexivity. }
  destruct (now_get l l' i0 H) as [(s & s' & -> & -> & E & _)|(e & -> & ->)]; cbn [bind]; [|reflexivity]. apply bind_ext. intros n0 _.
  rewrite (B n0 s s' E). apply for_each_ext'. intros i acc _. apply bind_ext. intros k _.
  destruct (now_get l l' k H) as [(a & a' & -> & -> & Ea & _)|(e & -> & ->)]; cbn [bind]; [|reflexivity]. apply bind_ext. intros n _. rewrite (B n a a' Ea). reflexivity.
Qed.
Lemma rows_twin p lf l l' : now l l' -> get_satisfied_rows p lf l' = get_satisfied_rows p lf l.
Proof. apply satisfied_twin; reflexivity. Qed.
Lemma cuts_twin p lf l l' : now l l' -> get_satisfied_cuts p lf l' = get_satisfied_cuts p lf l.
Proof. apply satisfied_twin; reflexivity. Qed.

Lemma follows_twin x x' lf l l' p : now l l' -> R x x' -> row_satisfies_path x' lf l' p = row_satisfies_path x lf l p.
Proof.
  intros H Hx. unfold row_satisfies_path. generalize (seq 0 (length (p_nodes p))). induction l0 as [|i is IH]; cbn [row_satisfies_loop]; [reflexivity|].
  apply bind_ext. intros k _. destruct (now_get l l' k H) as [(s & s' & -> & -> & E & Hs)|(e & -> & ->)]; cbn [bind]; [|reflexivity]. apply bind_ext. intros n _.
  destruct (side_get _ _ _ _ (Hs x x' Hx)) as [(v & v' & -> & -> & Ev)|(e & -> & ->)]; cbn [bind]; [|reflexivity]. rewrite !ltb_le, Ev, IH. reflexivity.
Qed.
Lemma implications_twin l l' : now l l' -> split_implications l' = split_implications l.
Proof.
  intros H. unfold split_implications. rewrite (now_length _ _ H). apply for_each_ext'. intros i acc _.
  destruct (now_nth l l' i H) as [(a & a' & Ea & Ea' & _)|[Ea Ea']].
  2:{ unfold getitem. rewrite Ea, Ea'. reflexivity. }
  unfold getitem at 1 3. rewrite Ea, Ea'. cbn [bind]. apply for_each_ext'. intros j acc' _.
  destruct (now_nth l l' j H) as [(b & b' & Eb & Eb' & _)|[Eb Eb']].
  2:{ unfold getitem. rewrite Eb, Eb'. reflexivity. }
  unfold getitem. rewrite Eb, Eb'. cbn [bind]. destruct H as [_ H2 H3].
  destruct (test_nth _ _ _ _ H2 Ea) as (a0 & Ea0 & A1 & A2). destruct (test_nth _ _ _ _ H2 Eb) as (b0 & Eb0 & B1 & B2).
  destruct (test_nth _ _ _ _ H3 Ea') as (a1 & Ea1 & A3 & A4). destruct (test_nth _ _ _ _ H3 Eb') as (b1 & Eb1 & B3 & B4).
  pose proof (tw_feature _ _ HT i j _ _ _ _ Ea0 Eb0 Ea1 Eb1) as F. rewrite A1, B1, A3, B3 in F.
  destruct (Nat.eqb_spec (s_feature a) (s_feature b)) as [Ef|Nf].
  - assert (Ef' : s_feature a' = s_feature b') by (apply F; exact Ef). apply Nat.eqb_eq in Ef'. rewrite Ef'. cbn [negb].
    assert (Ef0 : s_feature a0 = s_feature b0) by congruence.
    pose proof (tw_order _ _ HT i j _ _ _ _ Ea0 Eb0 Ea1 Eb1 Ef0) as O1. pose proof (tw_order _ _ HT j i _ _ _ _ Eb0 Ea0 Eb1 Ea1 (eq_sym Ef0)) as O2.
    rewrite A2, B2, A4, B4 in O1, O2.
    assert (L : Qltb (s_threshold a') (s_threshold b') = Qltb (s_threshold a) (s_threshold b)) by (apply eq_true_iff_eq; rewrite !Qltb_true; tauto).
    assert (Q : Qeq_bool (s_threshold a') (s_threshold b') = Qeq_bool (s_threshold a) (s_threshold b)).
    { apply eq_true_iff_eq. rewrite !Qeq_bool_iff. split; intros E.
      - destruct (Qlt_le_dec (s_threshold a) (s_threshold b)) as [C|C]; [apply O1 in C; lra|]. destruct (Qlt_le_dec (s_threshold b) (s_threshold a)) as [C'|C']; [apply O2 in C'; lra|]. lra.
      - destruct (Qlt_le_dec (s_threshold a') (s_threshold b')) as [C|C]; [apply O1 in C; lra|]. destruct (Qlt_le_dec (s_threshold b') (s_threshold a')) as [C'|C']; [apply O2 in C'; lra|]. lra. }
    rewrite L, Q. reflexivity.
  - destruct (Nat.eqb_spec (s_feature a') (s_feature b')) as [Ef'|Nf']; [exfalso; apply Nf, F, Ef'|reflexivity].
Qed.
Lemma cutgen_twin ps lv l l' : now l l' -> create_cut_gen_model ps lv l' = create_cut_gen_model ps lv l.
Proof. intros H. unfold create_cut_gen_model. rewrite (now_length _ _ H), (implications_twin _ _ H). reflexivity. Qed.

Lemma row_splits_twin x x' l l' : now l l' -> R x x' -> row_splits x' l' = row_splits x l.
Proof.
  intros [H1 H2 H3] Hx. unfold row_splits. generalize (@nil nat, @nil nat).
  assert (Hs : Forall2 (fun s s' => s' = with_test s (s_feature s') (s_threshold s') /\ side x s = side x' s') l l').
  { assert (N : now l l') by (split; auto). clear H2 H3. apply Forall2_nth_intro. intros i. destruct (now_nth l l' i N) as [(s & s' & -> & -> & E & Hs)|[-> ->]]; auto. }
  clear H1 H2 H3. induction Hs as [|s s' l l' [E Es] _ IH]; intros st; cbn [for_each]; [reflexivity|].
  destruct (side_get _ _ _ _ Es) as [(v & v' & -> & -> & Ev)|(e & -> & ->)]; cbn [bind]; [|reflexivity]. rewrite Ev.
  assert (Ei : s_id s' = s_id s) by (rewrite E; reflexivity). rewrite Ei. apply IH.
Qed.

Lemma satisfied_paths_twin x x' lv l l' ps ids : now l l' -> R x x' -> satisfied_paths x' lv l' ps ids = satisfied_paths x lv l ps ids.
Proof. intros H Hx. unfold satisfied_paths. apply for_each_ext'. intros p a _. apply bind_ext. intros lf _. rewrite (follows_twin x x' lf l l' p H Hx). reflexivity. Qed.
Lemma preprocess_row_twin lv nodes l l' ps x x' : now l l' -> R x x' -> preprocess_row lv nodes l' ps x' = preprocess_row lv nodes l ps x.
Proof.
  intros H Hx. unfold preprocess_row. rewrite (row_splits_twin x x' l l' H Hx). apply bind_ext. intros [ls rs] _. destruct (reach ls nodes) as [rn rl].
  rewrite (satisfied_paths_twin x x' lv l l' ps [] H Hx). reflexivity.
Qed.
Lemma map_res_F2' {A A' B} (P : A -> A' -> Prop) (f : A -> res B) (g : A' -> res B) l l' : Forall2 P l l' -> (forall a a', P a a' -> g a' = f a) -> map_res g l' = map_res f l.
Proof. intros F H. induction F as [|a a' l l' Ha F IH]; cbn [map_res]; [reflexivity|]. rewrite (H a a' Ha), IH. reflexivity. Qed.
Lemma F2_length {A B} (P : A -> B -> Prop) l l' : Forall2 P l l' -> length l' = length l.
Proof. induction 1; cbn; auto. Qed.
Lemma preprocess_twin ag X X' lv nodes l l' ps : now l l' -> Forall2 R X X' -> preprocess_rows ag X' lv nodes l' ps = preprocess_rows ag X lv nodes l ps.
Proof.
  intros H F. unfold preprocess_rows. destruct (length lv =? 0); [reflexivity|]. cbn zeta.
  rewrite (map_res_F2' R (preprocess_row lv (map (preprocess_node (Nat.log2 (length lv))) nodes) l ps) (preprocess_row lv (map (preprocess_node (Nat.log2 (length lv))) nodes) l' ps) X X' F)
    by (intros a a'; apply preprocess_row_twin; exact H).
  rewrite (F2_length _ _ _ F). reflexivity.
Qed.
Lemma get_twin X X' i : Forall2 R X X' -> (exists x x', getitem X i = Ok x /\ getitem X' i = Ok x' /\ R x x') \/ (exists e, getitem X i = Err e /\ getitem X' i = Err e).
Proof. intros F. unfold getitem. pose proof (F2_nth _ _ _ F i) as H. destruct (nth_error X i), (nth_error X' i); try contradiction; [left; eauto|right; eauto]. Qed.
Lemma compute_twin X X' lv l l' ps rows : now l l' -> Forall2 R X X' -> compute_satisfied_paths X' lv l' ps rows = compute_satisfied_paths X lv l ps rows.
Proof.
  intros H F. unfold compute_satisfied_paths. apply map_res_ext'. intros i _. apply bind_ext. intros r _. destruct ps as [|p ps]; [reflexivity|]. cbn [length Nat.eqb].
  destruct (get_twin X X' i F) as [(x & x' & -> & -> & Hx)|(e & -> & ->)]; cbn [bind]; [|reflexivity]. rewrite (satisfied_paths_twin x x' lv l l' _ _ H Hx). reflexivity.
Qed.
Lemma followed_twin x x' lv l l' ps : now l l' -> R x x' -> followed x' lv l' ps = followed x lv l ps.
Proof.
  intros H Hx. induction ps as [|p ps IH]; cbn [followed]; [reflexivity|]. apply bind_ext. intros lf _. rewrite (follows_twin x x' lf l l' p H Hx), IH. reflexivity.
Qed.
Lemma row_cons_twin b X X' lv l l' ps rows m : now l l' -> Forall2 R X X' -> make_row_cons b X' lv l' ps rows m = make_row_cons b X lv l ps rows m.
Proof.
  intros H F. unfold make_row_cons. rewrite (F2_length _ _ _ F). destruct b; [reflexivity|]. apply for_each_ext'. intros r [[m1 cs] added] _.
  apply bind_ext. intros dr _. destruct (r_gone dr); [reflexivity|]. apply bind_ext. intros ad1 _. destruct (new_con None (Some 1%Q) m1) as [c m2]. apply bind_ext. intros cs1 _.
  destruct (get_twin X X' r F) as [(x & x' & -> & -> & Hx)|(e & -> & ->)]; cbn [bind]; [|reflexivity]. rewrite (followed_twin x x' lv l l' ps H Hx). reflexivity.
Qed.

(** * The master problem *)
(** The same state with other samples and splits. *)
Definition remade (X' : list sample) (l' : list split) (s : tmaster) : tmaster :=
  mkTm (tm_generated s) X' (tm_y s) (tm_lp s) (tm_cutmodel s) (tm_paths s) (tm_path_vars s) (tm_leaves s)
       (tm_nodes s) l' (tm_rows s) (tm_beta_cuts s) (tm_gen_cuts s) (tm_rounds s) (tm_leaf_cons s)
       (tm_row_cons s) (tm_added s) (tm_cut_cons s) (tm_ns_vars s) (tm_ns_cons s) (tm_total_cuts s)
       (tm_obj s) (tm_prev s) (tm_iter s) (tm_values s) (tm_answer s) (tm_selected s) (tm_calls s).
Definition mrel (s s' : tmaster) : Prop := exists X' l', s' = remade X' l' s /\ length X' = length (tm_X s) /\ now (tm_splits s) l'.
Lemma rres_bind {A W B V} (P : W -> W -> Prop) (P2 : V -> V -> Prop) (r r' : res (A * W)) (f f' : A * W -> res (B * V)) :
  rres P r r' -> (forall a w w', r = Ok (a, w) -> P w w' -> rres P2 (f (a, w)) (f' (a, w'))) -> rres P2 (bind r f) (bind r' f').
Proof. destruct r as [[a w]|e], r' as [[a' w']|e']; cbn [rres bind]; try contradiction; auto. intros [-> H] K. apply K; auto. Qed.
Lemma rst_bind {W B V} (P : W -> W -> Prop) (P2 : V -> V -> Prop) (r r' : res W) (f f' : W -> res (B * V)) :
  rst P r r' -> (forall w w', r = Ok w -> P w w' -> rres P2 (f w) (f' w')) -> rres P2 (bind r f) (bind r' f').
Proof. destruct r as [w|e], r' as [w'|e']; cbn [rst rres bind]; try contradiction; auto. Qed.
Lemma bind_both {A B V} (P2 : V -> V -> Prop) (r : res A) (f f' : A -> res (B * V)) : (forall a, r = Ok a -> rres P2 (f a) (f' a)) -> rres P2 (bind r f) (bind r f').
Proof. destruct r; cbn [bind]; auto. intros _. reflexivity. Qed.

Lemma store_cut_twin k z : forall l l', now l l' -> rst now (store_cut k z l) (store_cut k z l').
Proof.
  intros l l' [H1 H2 H3].
  assert (G : match store_cut k z l, store_cut k z l' with Ok a, Ok a' => Forall2 (fun s s' => s' = with_test s (s_feature s') (s_threshold s')) a a' /\ map test a = map test l /\ map test a' = map test l' | Err e, Err e' => e' = e | _, _ => False end).
  { clear H2 H3. unfold store_cut. induction H1 as [|s s' l l' E F IH]; cbn [map_res]; [auto|].
    assert (Ei : s_id s' = s_id s) by (rewrite E; reflexivity). rewrite Ei. destruct (getitem z (s_id s)) as [b|e]; cbn [bind]; [|reflexivity].
    destruct (map_res _ l) as [a|e], (map_res _ l') as [a'|e']; cbn [bind]; try contradiction; auto. destruct IH as (G1 & G2 & G3).
    split; [|split; cbn [map]; f_equal; auto; reflexivity]. constructor; auto. rewrite E. reflexivity. }
  destruct (store_cut k z l) as [a|e], (store_cut k z l') as [a'|e']; cbn [rst]; try contradiction; auto. destruct G as (G1 & G2 & G3). split; [exact G1|congruence|congruence].
Qed.
Lemma for_store_twin {B} (f : B -> nat * list bool) ks : forall l l', now l l' ->
  rst now (for_each ks (fun kc sp => store_cut (fst (f kc)) (snd (f kc)) sp) l) (for_each ks (fun kc sp => store_cut (fst (f kc)) (snd (f kc)) sp) l').
Proof.
  induction ks as [|kc ks IH]; intros l l' H; cbn [for_each]; [exact H|]. pose proof (store_cut_twin (fst (f kc)) (snd (f kc)) l l' H) as G.
  destruct (store_cut _ _ l) as [a|e], (store_cut _ _ l') as [a'|e']; cbn [rst bind] in *; try contradiction; auto.
Qed.

Lemma beta_twin s s' : mrel s s' -> rres mrel (add_beta_cuts s) (add_beta_cuts s').
Proof.
  intros (X' & l' & -> & HX & Hn). unfold add_beta_cuts. cbn [remade tm_generated tm_X tm_values tm_lp tm_row_cons tm_added]. rewrite HX.
  apply bind_both. intros _ _. apply bind_both. intros rows _. apply bind_both. intros [num [[m cs] added]] _. cbn [rres]. split; [reflexivity|]. exists X', l'. auto.
Qed.
Lemma addcuts_twin sols s s' : mrel s s' -> rres mrel (add_cuts sols s) (add_cuts sols s').
Proof.
  intros (X' & l' & -> & HX & Hn). unfold add_cuts. apply bind_both. intros coeffs _. cbn zeta. cbn [remade tm_cutmodel].
  destruct (length _ =? 0); [split; [reflexivity|exists X', l'; auto]|]. cbn [remade tm_cut_cons tm_splits tm_paths tm_lp tm_added].
  eapply rst_bind; [apply (for_store_twin (fun kc => (fst kc, snd (snd kc)))); exact Hn|]. intros sp sp' _ Hsp. apply bind_both. intros [[m cs] added] _.
  cbn [rres]. split; [reflexivity|]. exists X', sp'. auto.
Qed.
Lemma mrel_answer s s' : mrel s s' -> tm_answer s' = tm_answer s /\ tm_beta_cuts s' = tm_beta_cuts s /\ tm_gen_cuts s' = tm_gen_cuts s /\ tm_calls s' = tm_calls s /\
  tm_iter s' = tm_iter s /\ tm_rounds s' = tm_rounds s /\ tm_generated s' = tm_generated s /\ tm_lp s' = tm_lp s.
Proof. intros (X' & l' & -> & _). repeat split. Qed.
Lemma mrel_store x s s' : mrel s s' -> mrel (store_lp_solution x s) (store_lp_solution x s').
Proof. intros (X' & l' & -> & HX & Hn). exists X', l'. auto. Qed.
Lemma mrel_total k s s' : mrel s s' -> mrel (add_total k s) (add_total k s').
Proof. intros (X' & l' & -> & HX & Hn). exists X', l'. auto. Qed.
Lemma mrel_solve sv s s' : mrel s s' -> mrel (solve_lp sv s) (solve_lp sv s').
Proof. intros (X' & l' & -> & HX & Hn). exists X', l'. auto. Qed.
Lemma mrel_start s s' : mrel s s' -> mrel (start_iter s) (start_iter s').
Proof. intros (X' & l' & -> & HX & Hn). exists X', l'. auto. Qed.

Lemma rounds_twin sv : forall n s s' new, mrel s s' -> rres mrel (cut_rounds sv n s new) (cut_rounds sv n s' new).
Proof.
  induction n as [|n IH]; intros s s' new H; cbn [cut_rounds]; [split; auto|]. destruct (mrel_answer _ _ H) as (-> & _). destruct (tm_answer s) as [[x pi]|]; [|split; auto].
  cbn zeta. pose proof (mrel_store x s s' H) as H1. destruct (mrel_answer _ _ H1) as (_ & -> & _).
  eapply (rres_bind mrel).
  { destruct (tm_beta_cuts (store_lp_solution x s)); [apply beta_twin; exact H1|split; auto]. }
  intros num w w' _ Hw. cbn beta iota. destruct (mrel_answer _ _ Hw) as (_ & _ & -> & -> & _).
  eapply (rres_bind mrel).
  { destruct (_ && _); [apply addcuts_twin; exact Hw|split; auto]. }
  intros cuts v v' _ Hv. cbn beta iota. destruct (_ || _); [|split; [reflexivity|apply mrel_total; exact Hv]]. apply IH. apply mrel_solve, mrel_total. exact Hv.
Qed.
Lemma duals_twin pi new s s' : mrel s s' -> read_duals pi new s' = read_duals pi new s.
Proof. intros (X' & l' & -> & HX & Hn). unfold read_duals. cbn [remade tm_X]. rewrite HX. reflexivity. Qed.
Lemma solve_rmp_twin sv s s' : mrel s s' -> rres mrel (solve_rmp sv s) (solve_rmp sv s').
Proof.
  intros H. unfold solve_rmp. destruct (mrel_answer _ _ H) as (_ & _ & _ & _ & _ & _ & -> & _). apply bind_both. intros _ _. cbn zeta.
  pose proof (mrel_solve sv _ _ (mrel_start _ _ H)) as H1. destruct (mrel_answer _ _ H1) as (_ & _ & _ & _ & -> & -> & _).
  eapply (rres_bind mrel).
  { destruct (_ =? 0); [apply rounds_twin; exact H1|split; auto]. }
  intros new w w' _ Hw. cbn beta iota. destruct (mrel_answer _ _ Hw) as (-> & _). destruct (tm_answer w) as [[x pi]|]; [|split; auto].
  pose proof (mrel_store x _ _ Hw) as H2. rewrite (duals_twin pi new _ _ H2). apply bind_both. intros d _. split; auto.
Qed.
Lemma add_column_twin p s s' : mrel s s' -> rres mrel (add_column p s) (add_column p s').
Proof.
  intros (X' & l' & -> & HX & Hn). unfold add_column. cbn [remade tm_lp]. destruct (new_var (Some 0%Q) None true (tm_lp s)) as [v m1]. cbn zeta.
  cbn [remade tm_leaf_cons tm_leaves tm_splits tm_row_cons tm_added tm_nodes tm_ns_cons tm_cut_cons tm_cutmodel].
  apply bind_both. intros m3 _. apply bind_both. intros lf _. rewrite (rows_twin _ lf _ _ Hn). apply bind_both. intros sat _. apply bind_both. intros rows _.
  apply bind_both. intros [m4 rows1] _. apply bind_both. intros m5 _. rewrite (cuts_twin _ lf _ _ Hn). apply bind_both. intros cuts _. apply bind_both. intros m6 _.
  apply bind_both. intros lits _. cbn [rres]. split; [reflexivity|]. exists X', l'. auto.
Qed.
Lemma solve_ip_twin ans s s' : mrel s s' -> rres mrel (solve_ip ans s) (solve_ip ans s').
Proof.
  intros (X' & l' & -> & HX & Hn). unfold solve_ip. cbn [remade tm_generated]. apply bind_both. intros _ _. destruct ans as [x|]; [|reflexivity]. cbn [rres].
  split; [reflexivity|]. exists X', l'. auto.
Qed.
Lemma generate_mp_twin X X' y s s' : Forall2 R X X' -> mrel s s' -> rst mrel (generate_mp X y s) (generate_mp X' y s').
Proof.
  intros F (X0 & l' & -> & HX & Hn). unfold generate_mp. cbn [remade tm_generated]. destruct (tm_generated s); [exists X0, l'; auto|].
  cbn [remade tm_paths tm_leaves tm_splits tm_lp tm_rows tm_nodes tm_beta_cuts]. rewrite (cutgen_twin _ _ _ _ Hn).
  destruct (create_cut_gen_model _ _ _) as [cm|]; cbn [bind]; [|reflexivity]. destruct (make_path_vars _ _) as [m1 ps]. cbn zeta.
  destruct (make_leaf_cons _ _ _) as [[m3 lc]|]; cbn [bind]; [|reflexivity]. rewrite (preprocess_twin false X X' _ _ _ _ _ Hn F).
  assert (Ec : forall rows, compute_satisfied_paths X' (tm_leaves s) l' ps rows = compute_satisfied_paths X (tm_leaves s) (tm_splits s) ps rows) by (intros; apply compute_twin; auto).
  destruct (tm_rows s) as [rows|].
  - rewrite Ec. destruct (compute_satisfied_paths _ _ _ _ _) as [rows1|]; cbn [bind]; [|reflexivity]. rewrite (row_cons_twin _ X X' _ _ _ _ _ _ Hn F).
    destruct (make_row_cons _ _ _ _ _ _ _) as [[[m4 rc] ad]|]; cbn [bind]; [|reflexivity]. destruct (for_ns _ _ _ _) as [[[m5 nv] nc]|]; cbn [bind]; [|reflexivity].
    exists X', l'. split; [reflexivity|]. split; [cbn; apply (F2_length _ _ _ F)|exact Hn].
  - destruct (preprocess_rows _ _ _ _ _ _) as [[nodes rows1]|]; cbn [bind]; [|reflexivity]. rewrite (row_cons_twin _ X X' _ _ _ _ _ _ Hn F).
    destruct (make_row_cons _ _ _ _ _ _ _) as [[[m4 rc] ad]|]; cbn [bind]; [|reflexivity]. destruct (for_ns _ _ _ _) as [[[m5 nv] nc]|]; cbn [bind]; [|reflexivity].
    exists X', l'. split; [reflexivity|]. split; [cbn; apply (F2_length _ _ _ F)|exact Hn].
Qed.

(** * The subproblems *)
Lemma reduced_twin n lv l l' dl p flags : now l l' -> get_reduced_cost n lv l' dl p flags = get_reduced_cost n lv l dl p flags.
Proof. intros H. unfold get_reduced_cost. apply bind_ext. intros rc1 _. apply bind_ext. intros lf _. rewrite (cuts_twin p lf l l' H). reflexivity. Qed.
Lemma round_twin rand order n y rows lv nodes l l' dl st : now l l' -> heur_round rand order n y rows lv nodes l' dl st = heur_round rand order n y rows lv nodes l dl st.
Proof.
  intros H. unfold heur_round. destruct st as [[g f] k]. apply bind_ext. intros [lf k1] _. apply bind_ext. intros [[ss|] k2] _; [|reflexivity].
  rewrite (rows_twin _ lf l l' H). apply bind_ext. intros sat _. apply bind_ext. intros [flags [t c]] _. apply bind_ext. intros dup _. destruct dup; [reflexivity|].
  rewrite (reduced_twin _ _ l l' _ _ _ H). reflexivity.
Qed.
Lemma heur_twin rand order n y rows lv nodes l l' dl h : now l l' -> heur_generate rand order n y rows lv nodes l' dl h = heur_generate rand order n y rows lv nodes l dl h.
Proof.
  intros H. unfold heur_generate. assert (E : forall k st, heur_rounds k (heur_round rand order n y rows lv nodes l' dl) st = heur_rounds k (heur_round rand order n y rows lv nodes l dl) st).
  { induction k as [|k IH]; intros st; cbn [heur_rounds]; [reflexivity|]. rewrite (round_twin _ _ _ _ _ _ _ l l' _ _ H). apply bind_ext. intros st1 _. apply IH. }
  rewrite E. reflexivity.
Qed.
Lemma heur_update_twin dl h l l' : now l l' -> rres now (heur_update dl h l) (heur_update dl h l').
Proof. intros H. unfold heur_update. eapply rst_bind; [apply (for_store_twin (fun kc => kc)); exact H|]. intros sp sp' _ Hs. split; auto. Qed.
Lemma goes_twin X X' l l' i k : now l l' -> Forall2 R X X' -> row_goes X' l' i k = row_goes X l i k.
Proof.
  intros H F. unfold row_goes, row_satisfies_split. destruct (now_get l l' k H) as [(s & s' & -> & -> & E & Hs)|(e & -> & ->)]; cbn [bind]; [|reflexivity].
  destruct (get_twin X X' i F) as [(x & x' & -> & -> & Hx)|(e & -> & ->)]; cbn [bind]; [|reflexivity].
  destruct (side_get _ _ _ _ (Hs x x' Hx)) as [(v & v' & -> & -> & Ev)|(e & -> & ->)]; cbn [bind]; [|reflexivity]. rewrite Ev. reflexivity.
Qed.
Lemma branch_ext c d lf nodes goes goes' us v m : (forall k, goes' k = goes k) -> branch_cons c d lf nodes goes' us v m = branch_cons c d lf nodes goes us v m.
Proof.
  intros H. unfold branch_cons. rewrite (map_res_ext' (fun id => let* nd := getitem nodes id in matching lf goes' us nd) (fun id => let* nd := getitem nodes id in matching lf goes us nd)); [reflexivity|].
  intros id _. apply bind_ext. intros nd _. unfold matching. destruct (memb (n_id nd) (l_left lf)); [|destruct (memb (n_id nd) (l_right lf)); [|reflexivity]];
    apply for_each_ext'; intros k acc _; rewrite H; reflexivity.
Qed.
Lemma row_con_twin c d lf nodes l l' X X' rows ys us i m : now l l' -> Forall2 R X X' -> row_con c d lf nodes l' X' rows ys us i m = row_con c d lf nodes l X rows ys us i m.
Proof.
  intros H F. unfold row_con. apply bind_ext. intros [w|] _; [|reflexivity]. apply bind_ext. intros [v|] _; [|reflexivity]. apply branch_ext. intros k. apply goes_twin; auto.
Qed.
Lemma create_twin c lf nodes l l' targets d rows X X' y q dl pr : now l l' -> Forall2 R X X' ->
  create_submip c lf nodes l' targets d rows X' y q dl pr = create_submip c lf nodes l targets d rows X y q dl pr.
Proof.
  intros H F. unfold create_submip. rewrite (F2_length _ _ _ F). apply bind_ext. intros _ _. cbn zeta. apply bind_ext. intros [[mo1 zs] ys] _. apply bind_ext. intros [mo2 ycs] _.
  apply bind_ext. intros [[m3 o3] us] _. apply bind_ext. intros m5 _.
  rewrite (for_each_ext' (row_con c d lf nodes l' X' rows ys us) (row_con c d lf nodes l X rows ys us)) by (intros; apply row_con_twin; auto). reflexivity.
Qed.
Lemma objective_twin c lf nodes rows X X' y q dl pr : Forall2 R X X' -> update_objective c lf nodes rows X' y q dl pr = update_objective c lf nodes rows X y q dl pr.
Proof. intros F. unfold update_objective. rewrite (F2_length _ _ _ F). reflexivity. Qed.
Lemma refresh_twin c lf nodes l l' targets d rows X X' y dl pr : now l l' -> Forall2 R X X' ->
  refresh c lf nodes l' targets d rows X' y dl pr = refresh c lf nodes l targets d rows X y dl pr.
Proof.
  intros H F. unfold refresh. apply bind_ext. intros q _. destruct (pr_generated pr); [apply objective_twin; exact F|apply create_twin; auto].
Qed.
Lemma update_twin c lf nodes l l' targets d rows X X' y dl pr : now l l' -> Forall2 R X X' ->
  update_subproblem c lf nodes l' targets d rows X' y dl pr = update_subproblem c lf nodes l targets d rows X y dl pr.
Proof. intros H F. unfold update_subproblem. destruct (_ && _); [reflexivity|]. rewrite (refresh_twin _ _ _ l l' _ _ _ X X' _ _ _ H F). reflexivity. Qed.
Lemma sat_twin c lf nodes l l' targets d rows rs solver X X' y dl sub pr : now l l' -> Forall2 R X X' ->
  sat_generate c lf nodes l' targets d rows rs solver X' y dl sub pr = sat_generate c lf nodes l targets d rows rs solver X y dl sub pr.
Proof. intros H F. unfold sat_generate. rewrite (refresh_twin _ _ _ l l' _ _ _ X X' _ _ _ H F). reflexivity. Qed.

(** * Prediction *)
Lemma code_twin x x' lv l l' sel : now l l' -> R x x' -> predict_code x' lv l' sel = predict_code x lv l sel.
Proof.
  intros H Hx. induction sel as [|p sel IH]; cbn [predict_code]; [reflexivity|]. apply bind_ext. intros lf _. rewrite (follows_twin x x' lf l l' p H Hx), IH. reflexivity.
Qed.
Lemma predict_twin {L} (classes : list L) lv l l' sel Xs Xs' : now l l' -> Forall2 R Xs Xs' -> predict classes lv l' sel Xs' = predict classes lv l sel Xs.
Proof.
  intros H F. unfold predict. rewrite (map_res_F2' R (fun x => predict_code x lv l sel) (fun x => predict_code x lv l' sel) Xs Xs' F); [reflexivity|].
  intros a a' Ha. apply code_twin; auto.
Qed.
End Twins.

(** * The estimator *)
Section Fit.
Variables (sv : fsolvers) (clk : nat -> Q) (A : targs) (splits' : list split).
Hypothesis HT : twins (ta_splits A) splits'.
Let A' := args_with A splits'.
Notation nowA := (now (ta_splits A) splits').
Notation mrelA := (mrel (ta_splits A) splits').
Notation RA := (same_sides (ta_splits A) splits').
Definition wrel (w w' : tworld) : Prop := mrelA (tw_master w) (tw_master w') /\ tw_heur w' = tw_heur w /\ tw_subs w' = tw_subs w /\ tw_calls w' = tw_calls w.

Lemma init_twin : rst wrel (dtree_init A) (dtree_init A').
Proof.
  unfold dtree_init. cbn [A' args_with ta_paths ta_leaves ta_nodes ta_splits ta_depth ta_targets ta_beta ta_gen ta_rounds ta_rows]. unfold check_arguments.
  rewrite (now_ids _ _ _ _ (now_start _ _ HT)). change (tree_levels A') with (tree_levels A). change (sub_specs A') with (sub_specs A).
  destruct (check_sequence (map n_id (ta_nodes A))); cbn [bind rst]; [|reflexivity]. destruct (check_sequence (map l_id (ta_leaves A))); cbn [bind rst]; [|reflexivity].
  destruct (for_each _ _ _); cbn [bind rst]; [|reflexivity]. destruct (construct _ _); cbn [bind rst]; [|reflexivity].
  split; [|cbn; auto]. cbn [tw_master]. exists [], splits'. split; [reflexivity|]. split; [reflexivity|]. apply (now_start _ _ HT).
Qed.
Lemma wrel_new w w' : wrel w w' -> frel (D := tduals) (C := path) wrel (new_estimator w) (new_estimator w').
Proof. intros H. exists w'. split; [reflexivity|exact H]. Qed.

Lemma fit_twin X X' y fuel : Forall2 RA X X' -> msim wrel (tree_fit sv A clk X y fuel) (tree_fit sv A' clk X' y fuel).
Proof.
  intros F. unfold tree_fit. apply sim_fit; try reflexivity; cbn [tree_env c_generate_mp c_solve_rmp c_improved c_reset_timer c_update c_generate c_add c_solve_ip].
  - intros [s h su k] [s' h' su' k'] (Hm & Hh & Hs & Hk). cbn [tw_master tw_heur tw_subs tw_calls] in *. subst h' su' k'. unfold tree_generate_mp. cbn [tw_master tw_heur tw_subs tw_calls].
    pose proof (generate_mp_twin _ _ HT X X' y s s' F Hm) as G. destruct (generate_mp X y s), (generate_mp X' y s'); cbn [rst bind] in *; try contradiction; auto. split; cbn; auto.
  - intros [s h su k] [s' h' su' k'] (Hm & Hh & Hs & Hk). cbn [tw_master tw_heur tw_subs tw_calls] in *. subst h' su' k'. unfold tree_solve_rmp. cbn [tw_master tw_heur tw_subs tw_calls].
    eapply rres_bind; [apply (solve_rmp_twin (ta_splits A) splits'); exact Hm|]. intros d w w' _ Hw. split; [reflexivity|]. split; cbn; auto.
  - intros [s h su k] [s' h' su' k'] (Hm & Hh & Hs & Hk). cbn [tw_master tw_heur tw_subs tw_calls] in *. subst h' su' k'.
    destruct Hm as (X0 & l' & -> & HX & Hn). split; [reflexivity|]. split; cbn; auto. exists X0, l'. auto.
  - intros w w' H. split; [reflexivity|exact H].
  - intros lv i d [s h su k] [s' h' su' k'] (Hm & Hh & Hs & Hk). cbn [tw_master tw_heur tw_subs tw_calls] in *. subst h' su' k'. unfold tree_update. cbn [tw_master tw_heur tw_subs tw_calls].
    destruct Hm as (X0 & l' & -> & HX & Hn). cbn [remade tm_splits tm_nodes]. change (sub_specs A') with (sub_specs A).
    destruct (lv =? 0).
    + pose proof (heur_update_twin _ _ d h _ _ Hn) as G. destruct (heur_update d h (tm_splits s)) as [[h1 sp]|e], (heur_update d h l') as [[h1' sp']|e']; cbn [rres rst bind] in *; try contradiction; auto.
      destruct G as [-> G]. split; cbn; auto. exists X0, sp'. auto.
    + destruct (getitem (sub_specs A) i) as [[c lf]|]; cbn [bind rst]; [|reflexivity]. destruct (getitem su i) as [[sub pr]|]; cbn [bind rst]; [|reflexivity].
      cbn [A' args_with ta_targets ta_depth ta_rows]. rewrite (update_twin _ _ c lf (tm_nodes s) _ _ (ta_targets A) (ta_depth A) (ta_rows A) X X' y d pr Hn F).
      destruct (update_subproblem _ _ _ _ _ _ _ _ _ _ _); cbn [bind rst]; [|reflexivity]. split; cbn; auto. exists X0, l'. auto.
  - intros lv i d [s h su k] [s' h' su' k'] (Hm & Hh & Hs & Hk). cbn [tw_master tw_heur tw_subs tw_calls] in *. subst h' su' k'. unfold tree_generate. cbn [tw_master tw_heur tw_subs tw_calls].
    destruct Hm as (X0 & l' & -> & HX & Hn). cbn zeta. cbn [remade tm_splits tm_nodes]. change (sub_specs A') with (sub_specs A). cbn [A' args_with ta_targets ta_depth ta_rows ta_leaves].
    rewrite (F2_length _ _ _ F). destruct (lv =? 0).
    + rewrite (heur_twin _ _ _ _ _ _ _ _ _ _ l' _ _ Hn). destruct (heur_generate _ _ _ _ _ _ _ _ _ _) as [[ps h1]|]; cbn [bind rres]; [|reflexivity]. split; [reflexivity|]. split; cbn; auto. exists X0, l'. auto.
    + destruct (getitem (sub_specs A) i) as [[c lf]|]; cbn [bind rres]; [|reflexivity]. destruct (getitem su i) as [[sub pr]|]; cbn [bind rres]; [|reflexivity]. destruct (is_sat c).
      * rewrite (sat_twin _ _ c lf (tm_nodes s) _ _ (ta_targets A) (ta_depth A) (ta_rows A) _ _ X X' y d sub pr Hn F).
        destruct (sat_generate _ _ _ _ _ _ _ _ _ _ _ _ _ _) as [[ps [sub1 pr1]]|]; cbn [bind rres]; [|reflexivity]. split; [reflexivity|]. split; cbn; auto. exists X0, l'. auto.
      * destruct (mip_generate _ _ _ _ _ _ _ _ _); cbn [bind rres]; [|reflexivity]. split; [reflexivity|]. split; cbn; auto. exists X0, l'. auto.
  - intros p [s h su k] [s' h' su' k'] (Hm & Hh & Hs & Hk). cbn [tw_master tw_heur tw_subs tw_calls] in *. subst h' su' k'. unfold tree_add. cbn [tw_master tw_heur tw_subs tw_calls].
    eapply rres_bind; [apply (add_column_twin (ta_splits A) splits'); exact Hm|]. intros d w w' _ Hw. split; [reflexivity|]. split; cbn; auto.
  - intros [s h su k] [s' h' su' k'] (Hm & Hh & Hs & Hk). cbn [tw_master tw_heur tw_subs tw_calls] in *. subst h' su' k'. unfold tree_solve_ip. cbn [tw_master tw_heur tw_subs tw_calls].
    destruct (mrel_answer _ _ _ _ Hm) as (_ & _ & _ & -> & _ & _ & _ & ->).
    eapply rres_bind; [apply (solve_ip_twin (ta_splits A) splits'); exact Hm|]. intros d w w' _ Hw. split; [reflexivity|]. split; cbn; auto.
Qed.
Lemma in_step_rel s s' : in_step sv clk A A' RA s s' -> frel wrel s s'.
Proof.
  induction 1 as [w w' E E'|s s' X X' y fuel t t' H IH F E E'].
  - pose proof init_twin as G. rewrite E, E' in G. apply wrel_new. exact G.
  - destruct (fit_twin X X' y fuel F s s' IH) as [G _]. rewrite E, E' in G. exact G.
Qed.
Lemma alike_twins : alike sv clk A A' RA.
Proof.
  split.
  - pose proof init_twin as G. destruct (dtree_init A), (dtree_init A'); cbn [rst] in G; auto.
  - intros s s' X X' y fuel H F. apply (fit_twin X X' y fuel F). apply in_step_rel. exact H.
  - intros s s' H. destruct (in_step_rel _ _ H) as (w' & -> & Hm & _). cbn [over f_trace f_iter f_improving f_optimal f_tlr f_cols f_tsp f_tadd f_tmaster f_tip f_elapsed f_world].
    destruct Hm as (X0 & l' & -> & _). repeat split.
  - intros s s' L classes Xs Xs' H F. destruct (in_step_rel _ _ H) as (w' & -> & Hm & _). unfold tree_predict. cbn [over f_world]. destruct Hm as (X0 & l' & -> & HX & Hn).
    cbn [remade tm_selected tm_splits]. destruct (tm_selected _) as [sel|]; [|reflexivity]. cbn [A' args_with ta_leaves]. apply (predict_twin (ta_splits A) splits'); auto.
Qed.
End Fit.

(** Which calls the times reported by fit belong to. *)
From Verif Require Import Base FitModel SpecFit SpecReport FitProofs FitMainProofs.
Open Scope Q_scope.

Section T.
Context {W D C : Type}.
Variable E : env W D C.
Hypothesis Mono : forall n, clock E n <= clock E (S n).
Notation st := (fstate W D C).
Notation ev := (event D C).
Implicit Types s : st.
Implicit Types P : list ev -> bool.
Local Arguments cell {A} a m l i : simpl never.

Lemma spent_snoc P tl q e q2 e2 :
  spent P (tl ++ [(q, e); (q2, e2)]) == spent P (tl ++ [(q, e)]) + (if P e then q2 - q else 0).
Proof.
  induction tl as [|[q0 e0] tl IH]; cbn [app spent fst snd]; [lra|].
  destruct tl as [|x tl]; cbn [app] in *.
  - cbn [spent fst snd]. lra.
  - rewrite IH. lra.
Qed.
Lemma spent_last P tl q e e2 : spent P (tl ++ [(q, e)]) = spent P (tl ++ [(q, e2)]).
Proof.
  induction tl as [|[q0 e0] tl IH]; [reflexivity|]. destruct tl as [|x tl]; [reflexivity|].
  cbn [app spent fst snd] in *. rewrite IH. reflexivity.
Qed.

Definition plain (x : ev) : bool := negb (is_solve x || is_ip x || is_offer x || match x with EvUpdate _ _ _ => true | EvGenerate _ _ _ _ => true | _ => false end).

Variable k0 : nat.
Variable tr0 : list ev.

Record Inv (clean : bool) (ip : Q) s (tl : list (Q * list ev)) : Prop := {
  i_tick : f_tick s = (k0 + length tl)%nat;
  i_read : map fst tl = map (clock E) (seq k0 (length tl));
  i_trace : f_trace s = tr0 ++ concat (map snd tl);
  i_alone : Forall (fun qe => alone (snd qe)) tl;
  i_master : f_tmaster s == spent (holds is_solve) tl;
  i_sp : forall l i, cell 0 (f_tsp s) l i == spent (holds (works l i)) tl;
  i_ip : ip == spent (holds is_ip) tl;
  i_add : spent (holds is_offer) tl <= f_tadd s <= spent (holds is_offer) tl + spent idle tl;
  i_last : exists tl0 q e, tl = tl0 ++ [(q, e)] /\ (e = [] \/ (clean = false /\ exists x, e = [x] /\ plain x = true))
}.

Definition agree s s' : Prop :=
  f_tick s' = f_tick s /\ f_trace s' = f_trace s /\ f_tmaster s' = f_tmaster s /\ f_tsp s' = f_tsp s /\ f_tadd s' = f_tadd s.

Lemma agree_inv b ip s s' tl : agree s s' -> Inv b ip s tl -> Inv b ip s' tl.
Proof. intros (A1 & A2 & A3 & A4 & A5) []. constructor; rewrite ?A1, ?A2, ?A3, ?A4, ?A5; auto. Qed.

Lemma weaken b ip s tl : Inv true ip s tl -> Inv b ip s tl.
Proof.
  intros []. constructor; auto. destruct i_last0 as (tl0 & q & e & A & [B|[B _]]); [|discriminate].
  exists tl0, q, e. auto.
Qed.

Lemma read_snoc (tl : list (Q * list ev)) q e :
  map fst tl = map (clock E) (seq k0 (length tl)) -> q = clock E (k0 + length tl) ->
  map fst (tl ++ [(q, e)]) = map (clock E) (seq k0 (length (tl ++ [(q, e)]))).
Proof.
  intros H ->. rewrite app_length, seq_app, !map_app, H. reflexivity.
Qed.

Lemma last_reading (tl : list (Q * list ev)) q e :
  map fst (tl ++ [(q, e)]) = map (clock E) (seq k0 (length (tl ++ [(q, e)]))) -> q = clock E (k0 + length tl).
Proof.
  rewrite app_length, seq_app, !map_app. cbn. intros H.
  apply app_inj_tail in H. tauto.
Qed.

(** The next reading: what happened since the last one is closed. *)
Lemma block b ip s tl0 q e es ip' s' :
  Inv b ip s (tl0 ++ [(q, e)]) -> alone (e ++ es) ->
  f_tick s' = S (f_tick s) -> f_trace s' = f_trace s ++ es ->
  let q2 := clock E (f_tick s) in
  f_tmaster s' == f_tmaster s + (if holds is_solve (e ++ es) then q2 - q else 0) ->
  (forall l i, cell 0 (f_tsp s') l i == cell 0 (f_tsp s) l i + (if holds (works l i) (e ++ es) then q2 - q else 0)) ->
  ip' == ip + (if holds is_ip (e ++ es) then q2 - q else 0) ->
  (exists z, f_tadd s' == f_tadd s + z /\ (if holds is_offer (e ++ es) then z == q2 - q else 0 <= z /\ if idle (e ++ es) then z <= q2 - q else z == 0)) ->
  q <= q2 /\ Inv true ip' s' (tl0 ++ [(q, e ++ es); (q2, [])]).
Proof.
  intros [] Al Tk Tr q2 HM HS HI (z & Hz & HA).
  pose proof (last_reading _ _ _ i_read0) as Hq.
  assert (Hq2 : q <= q2).
  { unfold q2. rewrite i_tick0, app_length, Hq. cbn. replace (k0 + (length tl0 + 1))%nat with (S (k0 + length tl0)) by lia. apply Mono. }
  split; [exact Hq2|].
  constructor.
  - rewrite Tk, i_tick0, !app_length. cbn. lia.
  - change [(q, e ++ es); (q2, [])] with ([(q, e ++ es)] ++ [(q2, @nil ev)]). rewrite app_assoc. apply read_snoc.
    + revert i_read0. rewrite !map_app, !app_length. cbn. auto.
    + unfold q2. rewrite i_tick0, !app_length. reflexivity.
  - rewrite Tr, i_trace0, !map_app, !concat_app. cbn. rewrite !app_nil_r, <- !app_assoc. reflexivity.
  - apply Forall_app in i_alone0. apply Forall_app. split; [tauto|].
    constructor; [exact Al|constructor; [left; cbn; lia|constructor]].
  - rewrite spent_snoc, (spent_last _ _ _ (e ++ es) e), HM, i_master0. reflexivity.
  - intros l i. rewrite spent_snoc, (spent_last _ _ _ (e ++ es) e), HS, i_sp0. reflexivity.
  - rewrite spent_snoc, (spent_last _ _ _ (e ++ es) e), HI, i_ip0. reflexivity.
  - rewrite !spent_snoc, !(spent_last _ _ _ (e ++ es) e), Hz. 
    destruct (holds is_offer (e ++ es)) eqn:Ho.
    + destruct (idle (e ++ es)) eqn:Hi; lra.
    + destruct (idle (e ++ es)) eqn:Hi; lra.
  - exists (tl0 ++ [(q, e ++ es)]), q2, []. rewrite <- app_assoc. auto.
Qed.

Lemma plain_no (x : ev) : plain x = true ->
  is_solve x = false /\ is_ip x = false /\ is_offer x = false /\ forall l i, works l i x = false.
Proof. destruct x; cbn; intros H; try discriminate; auto. Qed.

Lemma alone_nil : @alone D C [].
Proof. left. cbn. lia. Qed.
Lemma alone_one (x : ev) : alone [x].
Proof. left. cbn. lia. Qed.

Lemma time_inv b ip s tl s' q2 : time E s = (s', Done q2) -> Inv b ip s tl ->
  exists tl0 , Inv true ip s' (tl0 ++ [(q2, [])]).
Proof.
  intros H I. destruct (i_last _ _ _ _ I) as (tl0 & q & e & -> & He). inversion H; subst; clear H.
  assert (N : holds is_solve e = false /\ holds is_ip e = false /\ holds is_offer e = false /\ (forall l i, holds (works l i) e = false) /\ alone e).
  { destruct He as [->|(_ & x & -> & Hx)]; [repeat split; auto using alone_nil|].
    apply plain_no in Hx as (X1 & X2 & X3 & X4). cbn. rewrite X1, X2, X3. repeat split; auto using alone_one. intros. rewrite X4. reflexivity. }
  destruct N as (N1 & N2 & N3 & N4 & N5).
  exists (tl0 ++ [(q, e ++ [])]). rewrite <- app_assoc.
  eapply (block b ip s tl0 q e [] ip); eauto; cbn; rewrite ?app_nil_r; auto; rewrite ?N1, ?N2, ?N3; try lra.
  - intros. rewrite ?app_nil_r, N4. lra.
  - exists 0. rewrite ?app_nil_r, ?N3. split; [lra|]. split; [lra|].
    assert (q <= clock E (f_tick s)).
    { destruct I. pose proof (last_reading _ _ _ i_read0) as Hq. rewrite i_tick0, app_length, Hq. cbn.
      replace (k0 + (length tl0 + 1))%nat with (S (k0 + length tl0)) by lia. apply Mono. }
    destruct (idle e); lra.
Qed.

Lemma event_inv ip s tl0 q s' x :
  Inv true ip s (tl0 ++ [(q, [])]) -> plain x = true ->
  f_tick s' = f_tick s -> f_trace s' = f_trace s ++ [x] -> f_tmaster s' = f_tmaster s -> f_tsp s' = f_tsp s -> f_tadd s' = f_tadd s ->
  Inv false ip s' (tl0 ++ [(q, [x])]).
Proof.
  intros [] Hx A1 A2 A3 A4 A5.
  constructor; rewrite ?A1, ?A3, ?A4, ?A5, ?(fun P => spent_last P tl0 q [x] []); auto.
  - rewrite i_tick0, !app_length. reflexivity.
  - revert i_read0. rewrite !map_app, !app_length. auto.
  - rewrite A2, i_trace0, !map_app, !concat_app. cbn. rewrite <- !app_assoc. reflexivity.
  - apply Forall_app in i_alone0. apply Forall_app. split; [tauto|]. constructor; [apply alone_one|constructor].
  - intros l i. rewrite (spent_last _ _ _ [x] []). apply i_sp0.
  - exists tl0, q, [x]. split; auto. right. eauto.
Qed.

Lemma cell_update m m' l i z :
  update2 m l i (fun x => x + z) = Ok m' ->
  forall l' i', cell 0 m' l' i' == cell 0 m l' i' + if (l =? l')%nat && (i =? i')%nat then z else 0.
Proof.
  unfold update2. intros H. inv_ok. apply getitem_ok in E0, E1. rename v into row, v0 into a.
  intros l' i'. unfold cell. rewrite nth_set_nth.
  assert (Hl : (l < length m)%nat) by (apply nth_error_Some; congruence).
  apply Nat.ltb_lt in Hl. rewrite Hl, andb_true_r.
  rewrite (Nat.eqb_sym l l'), (Nat.eqb_sym i i').
  destruct (Nat.eqb_spec l' l) as [->|Hne]; [|rewrite andb_false_l; lra].
  rewrite nth_set_nth. assert (Hi : (i < length row)%nat) by (apply nth_error_Some; congruence).
  apply Nat.ltb_lt in Hi. rewrite Hi, andb_true_r, andb_true_l.
  rewrite (nth_error_nth m l [] E0).
  destruct (Nat.eqb_spec i' i) as [->|Hne]; [|lra].
  rewrite (nth_error_nth row i 0 E1). lra.
Qed.

Lemma works_update l i l' i' (d : D) : @works D C l i (EvUpdate l' i' d) = ((l' =? l) && (i' =? i))%nat.
Proof. reflexivity. Qed.
Lemma works_generate l i l' i' (d : D) cols : @works D C l i (EvGenerate l' i' d cols) = ((l' =? l) && (i' =? i))%nat.
Proof. reflexivity. Qed.

Ltac bind H s a H1 := apply mbind_done in H; destruct H as (s & a & H1 & H).
Ltac done_in H := unfold get_tstart, get_tlr, get_iter, set_tstart, set_elapsed, set_tlr, set_optimal, incr_iter, incr_improving, add_cols, log, ret in H; inversion H; subst; clear H.

Lemma call_done {A} (f : W -> res (A * W)) g s s' a : call f g s = (s', Done a) ->
  f_tick s' = f_tick s /\ f_trace s' = f_trace s ++ [g a] /\ f_tmaster s' = f_tmaster s /\ f_tsp s' = f_tsp s /\ f_tadd s' = f_tadd s.
Proof.
  unfold call. destruct (f (f_world s)) as [[a' w]|]; [|discriminate]. intros H. inversion H; subst. auto.
Qed.
Lemma call_unit_done f x s s' u : call_unit f x s = (s', Done u) ->
  f_tick s' = f_tick s /\ f_trace s' = f_trace s ++ [x] /\ f_tmaster s' = f_tmaster s /\ f_tsp s' = f_tsp s /\ f_tadd s' = f_tadd s.
Proof. unfold call_unit. intros H. apply call_done in H. exact H. Qed.

Lemma update_row_inv l is d ip : forall s tl s' u,
  update_row E l is d s = (s', Done u) -> Inv false ip s tl -> exists tl', Inv false ip s' tl'.
Proof.
  induction is as [|i is IH]; intros s tl s' u H I; [inversion H; subst; eauto|].
  cbn [update_row] in H.
  bind H s1 t0 H1. destruct (time_inv _ _ _ _ _ _ H1 I) as (tl1 & I1).
  bind H s2 u2 H2. apply call_unit_done in H2 as (A1 & A2 & A3 & A4 & A5).
  bind H s3 t1 H3. inversion H3; subst t1. clear H3.
  bind H s4 u4 H4. unfold add_tsp in H4.
  destruct (update2 _ _ _ _) as [t|] eqn:U; [|discriminate]. inversion H4; subst; clear H4.
  match type of H with _ ?sx = _ => destruct (block true ip s1 tl1 t0 [] [EvUpdate l i d] ip sx I1) as [_ I2] end;
    cbn; rewrite ?A1, ?A3, ?A5; auto using alone_one; try lra.
  - intros l' i'. cbn in U. pose proof (cell_update _ _ _ _ _ U l' i') as Hc. rewrite Hc, A4, A1, orb_false_r. reflexivity.
  - exists 0. lra.
  - eapply IH; [exact H|]. apply weaken. exact I2.
Qed.

Lemma update_all_inv ns d ip : forall l s tl s' u,
  update_all E l ns d s = (s', Done u) -> Inv false ip s tl -> exists tl', Inv false ip s' tl'.
Proof.
  induction ns as [|n ns IH]; intros l s tl s' u H I; [inversion H; subst; eauto|].
  cbn [update_all] in H. bind H s1 u1 H1.
  destruct (update_row_inv _ _ _ _ _ _ _ _ H1 I) as (tl1 & I1). eauto.
Qed.

Lemma add_columns_done l i cols : forall upd s s' b, add_columns E l i cols upd s = (s', Done b) ->
  exists es, f_tick s' = f_tick s /\ f_trace s' = f_trace s ++ es /\ f_tmaster s' = f_tmaster s /\ f_tsp s' = f_tsp s /\ f_tadd s' = f_tadd s
    /\ forallb is_offer es = true.
Proof.
  induction cols as [|c cols IH]; intros upd s s' b H; cbn [add_columns] in H.
  - inversion H; subst. exists []. rewrite app_nil_r. repeat split; reflexivity.
  - bind H s1 b1 H1. apply call_done in H1 as (A1 & A2 & A3 & A4 & A5).
    bind H s2 u2 H2. unfold add_cols in H2. destruct (update2 _ _ _ _) as [t|] eqn:U; [|discriminate].
    inversion H2; subst; clear H2. apply IH in H as (es & B1 & B2 & B3 & B4 & B5 & B6). cbn in *.
    exists (EvAdd l i c b1 :: es). rewrite B1, B2, B3, B4, B5, A1, A2, A3, A4, A5, <- app_assoc. repeat split; auto.
Qed.

Lemma offers_only (es : list ev) : forallb is_offer es = true ->
  holds is_solve es = false /\ holds is_ip es = false /\ (forall l i, holds (works l i) es = false)
  /\ holds is_offer es = negb (idle es).
Proof.
  unfold holds. intros H. assert (N : forall p : ev -> bool, (forall l i c b, p (EvAdd l i c b) = false) -> existsb p es = false).
  { intros p Hp. clear - H Hp. induction es as [|x es IH]; cbn in *; auto. apply andb_true_iff in H as [H1 H2].
    rewrite IH by auto. destruct x; try discriminate. rewrite Hp. reflexivity. }
  repeat split; try (intros; apply N; reflexivity).
  destruct es as [|x es]; cbn in *; auto. apply andb_true_iff in H as [-> _]. reflexivity.
Qed.

Lemma price_row_inv l is d ip : forall upd s tl s' b,
  price_row E l is d upd s = (s', Done b) -> Inv false ip s tl -> exists tl', Inv false ip s' tl'.
Proof.
  induction is as [|i is IH]; intros upd s tl s' b H I; [inversion H; subst; eauto|].
  cbn [price_row] in H.
  bind H s1 t H1. destruct (time_inv _ _ _ _ _ _ H1 I) as (tl1 & I1). clear H1.
  bind H s2 ts H2. done_in H2.
  bind H s3 u3 H3. done_in H3.
  bind H s4 u4 H4. done_in H4. 
  match type of H with context [mkF (f_world s2) (f_tick s2) (f_trace s2 ++ [?x])] =>
    match type of H with _ ?sx = _ => assert (I4 : Inv false ip sx (tl1 ++ [(t, [x])])) by (eapply event_inv; eauto; reflexivity); remember sx as s4 eqn:E4; clear E4 end end.
  destruct (_ && _).
  - bind H s5 u5 H5. done_in H5. done_in H. eexists. eapply agree_inv; [|exact I4]. repeat split.
  - bind H s5 q0 H5. destruct (time_inv _ _ _ _ _ _ H5 I4) as (tl5 & I5). clear H5.
    bind H s6 cols H6. apply call_done in H6 as (A1 & A2 & A3 & A4 & A5).
    bind H s7 q1 H7. inversion H7; subst q1. clear H7.
    bind H s8 u8 H8. unfold add_tsp in H8. destruct (update2 _ _ _ _) as [m|] eqn:U; [|discriminate].
    inversion H8; subst; clear H8.
    match type of H with _ ?sx = _ => destruct (block true ip s5 tl5 q0 [] [EvGenerate l i d cols] ip sx I5) as [_ I8]; [..|remember sx as s8 eqn:E8; clear E8] end;
      cbn; rewrite ?A1, ?A3, ?A5; auto using alone_one; try lra.
    { intros l' i'. cbn in U. pose proof (cell_update _ _ _ _ _ U l' i') as Hc. rewrite Hc, A4, A1, orb_false_r. reflexivity. }
    { exists 0. lra. }
    bind H s9 a0 H9. destruct (time_inv _ _ _ _ _ _ H9 I8) as (tl9 & I9). clear H9.
    bind H s10 upd' H10. apply add_columns_done in H10 as (es & B1 & B2 & B3 & B4 & B5 & B6).
    bind H s11 a1 H11. inversion H11; subst a1 s11. clear H11.
    bind H s12 u12 H12. inversion H12; subst; clear H12.
    destruct (offers_only es B6) as (O1 & O2 & O3 & O4). unfold holds in O1, O2, O3, O4.
    match type of H with context [mkF (f_world s10) (S (f_tick s10)) ?b1 ?b2 ?b3 ?b4 ?b5 ?b6 ?b7 ?b8 ?b9 ?b10 ?b11 ?b12 ?b13 ?b14] =>
      assert (J : Inv true ip (mkF (f_world s10) (S (f_tick s10)) b1 b2 b3 b4 b5 b6 b7 b8 b9 b10 b11 b12 b13 b14) (tl9 ++ [(a0, [] ++ es); (clock E (f_tick s9), [])])) end.
    { assert (Ha : a0 <= clock E (f_tick s9)).
      { destruct I9. pose proof (last_reading _ _ _ i_read0) as Hq. rewrite i_tick0, app_length, Hq. cbn.
        replace (k0 + (length tl9 + 1))%nat with (S (k0 + length tl9)) by lia. apply Mono. }
      eapply (block true ip s9 tl9 a0 [] es ip); eauto; cbn; rewrite ?O1, ?O2, ?B1, ?B2, ?B3, ?B4, ?B5; try lra; try reflexivity.
      - right. exact B6.
      - intros. unfold holds. cbn [app]. rewrite O3. lra.
      - eexists. split; [reflexivity|]. rewrite O4. destruct (idle es); cbn; lra. }
    cbn in H. destruct upd'.
    + inversion H; subst. eexists. apply weaken. exact J.
    + eapply IH; [exact H|]. apply weaken. exact J.
Qed.

Lemma price_all_inv ns d ip : forall l upd s tl s' b,
  price_all E l ns d upd s = (s', Done b) -> Inv false ip s tl -> exists tl', Inv false ip s' tl'.
Proof.
  induction ns as [|n ns IH]; intros l upd s tl s' b H I; [inversion H; subst; eauto|].
  cbn [price_all] in H.
  bind H s1 u1 H1. destruct (price_row_inv _ _ _ _ _ _ _ _ _ H1 I) as (tl1 & I1). clear H1.
  bind H s2 t H2. destruct (time_inv _ _ _ _ _ _ H2 I1) as (tl2 & I2). clear H2.
  bind H s3 ts H3. done_in H3.
  bind H s4 u4 H4. done_in H4.
  bind H s5 tlr H5. unfold get_tlr in H5. injection H5 as <- <-.
  match type of H with context [mkF (f_world s3) (f_tick s3) ?b1 ?b2 ?b3 ?b4 ?b5 ?b6 ?b7 ?b8 ?b9 ?b10 ?b11 ?b12 ?b13 ?b14] =>
      assert (J : Inv false ip (mkF (f_world s3) (f_tick s3) b1 b2 b3 b4 b5 b6 b7 b8 b9 b10 b11 b12 b13 b14) (tl2 ++ [(t, [])])) end.
  { eapply agree_inv; [|apply weaken; exact I2]. repeat split. }
  cbn in H. destruct (f_tlr s3); [inversion H; subst; eauto|]. destruct u1; [inversion H; subst; eauto|]. eauto.
Qed.

Lemma iteration_inv ip s tl s' b :
  iteration E s = (s', Done b) -> Inv false ip s tl -> exists tl', Inv false ip s' tl'.
Proof.
  intros H I. unfold iteration in H.
  bind H s1 u1 H1. assert (I1 : Inv false ip s1 tl) by (inversion H1; subst; eapply agree_inv; [|exact I]; repeat split). clear H1.
  bind H s2 t2 H2. destruct (time_inv _ _ _ _ _ _ H2 I1) as (tl2 & I2). clear H2.
  bind H s3 m0 H3. destruct (time_inv _ _ _ _ _ _ H3 I2) as (tl3 & I3). clear H3.
  bind H s4 d H4. apply call_done in H4 as (A1 & A2 & A3 & A4 & A5).
  bind H s5 m1 H5. inversion H5; subst m1 s5. clear H5.
  bind H s6 u6 H6. inversion H6; subst s6 u6. clear H6.
  match type of H with context [mkF (f_world s4) (S (f_tick s4)) ?b1 ?b2 ?b3 ?b4 ?b5 ?b6 ?b7 ?b8 ?b9 ?b10 ?b11 ?b12 ?b13 ?b14] =>
      assert (J : Inv true ip (mkF (f_world s4) (S (f_tick s4)) b1 b2 b3 b4 b5 b6 b7 b8 b9 b10 b11 b12 b13 b14) (tl3 ++ [(m0, [] ++ [EvSolveRmp d]); (clock E (f_tick s3), [])]));
      [|revert J H; generalize (mkF (f_world s4) (S (f_tick s4)) b1 b2 b3 b4 b5 b6 b7 b8 b9 b10 b11 b12 b13 b14); intros s6 J H] end.
  { eapply (block true ip s3 tl3 m0 [] [EvSolveRmp d] ip); eauto; cbn; rewrite ?A1, ?A2, ?A3, ?A4, ?A5; auto using alone_one; try lra.
    - intros; lra.
    - exists 0. lra. }
  change (tl3 ++ [(m0, [] ++ [EvSolveRmp d]); (clock E (f_tick s3), [])]) with (tl3 ++ [(m0, [EvSolveRmp d])] ++ [(clock E (f_tick s3), @nil ev)]) in J.
  rewrite app_assoc in J.
  bind H s7 im H7. apply call_done in H7 as (C1 & C2 & C3 & C4 & C5).
  pose proof (event_inv _ _ _ _ s7 (EvImproved im) J eq_refl C1 C2 C3 C4 C5) as I7.
  bind H s8 u8 H8. assert (I8 : exists tl8, Inv false ip s8 tl8).
  { destruct im; inversion H8; subst; eexists; [eapply agree_inv; [|exact I7]; repeat split|exact I7]. }
  clear H8. destruct I8 as (tl8 & I8).
  bind H s9 r H9. destruct (c_reset_timer E (f_world s8)) as [r' w'] eqn:ER. inversion H9; subst r' s9; clear H9.
  match type of H with context [mkF w' (f_tick s8) ?b1 ?b2 ?b3 ?b4 ?b5 ?b6 ?b7 ?b8 ?b9 ?b10 ?b11 ?b12 ?b13 ?b14] =>
      assert (I9 : Inv false ip (mkF w' (f_tick s8) b1 b2 b3 b4 b5 b6 b7 b8 b9 b10 b11 b12 b13 b14) tl8) by (eapply agree_inv; [|exact I8]; repeat split);
      revert I9 H; generalize (mkF w' (f_tick s8) b1 b2 b3 b4 b5 b6 b7 b8 b9 b10 b11 b12 b13 b14); intros s9 I9 H end.
  bind H s10 u10 H10. assert (I10 : exists tl10, Inv false ip s10 tl10).
  { destruct r; [|inversion H10; subst; eauto].
    bind H10 z1 tz Z1. destruct (time_inv _ _ _ _ _ _ Z1 I9) as (tlz & Iz). clear Z1.
    bind H10 z2 uz Z2. inversion Z2; subst; clear Z2. inversion H10; subst; clear H10.
    eexists. eapply (event_inv _ _ _ _ _ EvResetTimer Iz); reflexivity. }
  clear H10. destruct I10 as (tl10 & I10).
  bind H s11 u11 H11. destruct (update_all_inv _ _ _ _ _ _ _ _ H11 I10) as (tl11 & I11). 
  eapply price_all_inv; eauto.
Qed.

Lemma loop_inv ip fuel : forall s tl s' u,
  loop E fuel s = (s', Done u) -> Inv false ip s tl -> exists tl', Inv false ip s' tl'.
Proof.
  induction fuel as [|fuel IH]; intros s tl s' u H I; [discriminate|]. cbn [loop] in H.
  bind H s0 k H0. unfold get_iter in H0. injection H0 as <- <-.
  destruct (_ && _); [inversion H; subst; eauto|].
  bind H s1 up H1. destruct (iteration_inv _ _ _ _ _ H1 I) as (tl1 & I1).
  destruct up; [eauto|].
  bind H s2 tlr H2. unfold get_tlr in H2. injection H2 as <- <-.
  destruct (f_tlr s1); inversion H; subst; [eauto|].
  eexists. eapply agree_inv; [|exact I1]. repeat split.
Qed.

Lemma finish_inv s tl s' u :
  finish E s = (s', Done u) -> Inv false 0 s tl -> exists tl', Inv true (f_tip s') s' tl'.
Proof.
  intros H I. unfold finish in H.
  bind H s1 u1 H1. inversion H1; subst u1 s1; clear H1.
  bind H s2 u2 H2.
  assert (I2 : exists tl2, Inv false (f_tip s2) s2 tl2).
  { destruct (rmp_is_ip E); [|inversion H2; subst; eexists; eapply agree_inv; [|exact I]; repeat split].
    match type of H2 with _ ?sx = _ => assert (J : Inv false 0 sx tl) by (eapply agree_inv; [|exact I]; repeat split); assert (F : f_tip sx = 0) by reflexivity; revert J F H2; generalize sx; intros sx' J F H2 end.
    bind H2 s3 t0 H3. destruct (time_inv _ _ _ _ _ _ H3 J) as (tl3 & I3). assert (F3 : f_tip s3 = 0) by (inversion H3; subst; exact F). clear H3.
    bind H2 s4 ok H4. assert (F4 : f_tip s4 = 0).
    { unfold call in H4. destruct (c_solve_ip E _) as [[? ?]|]; [|discriminate]. inversion H4; subst. exact F3. }
    apply call_done in H4 as (A1 & A2 & A3 & A4 & A5).
    bind H2 s5 t1 H5. inversion H5; subst t1 s5. clear H5.
    bind H2 s6 u6 H6. inversion H6; subst s6 u6; clear H6.
    destruct ok; [|discriminate H2]. inversion H2; subst s2; clear H2.
    eexists. apply weaken. cbn [f_tip].
    eapply (block true 0 s3 tl3 t0 [] [EvSolveIp true]); eauto; cbn; rewrite ?A1, ?A2, ?A3, ?A4, ?A5, ?F4; auto using alone_one; try lra.
    - intros; lra.
    - exists 0. lra. }
  destruct I2 as (tl2 & I2).
  bind H s3 u3 H3. assert (I3 : Inv false (f_tip s3) s3 tl2) by (inversion H3; subst; eapply agree_inv; [|exact I2]; repeat split). clear H3.
  bind H s4 t H4. destruct (time_inv _ _ _ _ _ _ H4 I3) as (tl4 & I4). assert (F4 : f_tip s4 = f_tip s3) by (inversion H4; reflexivity). clear H4.
  bind H s5 t0 H5. unfold get_tstart in H5. injection H5 as <- <-.
  inversion H; subst. cbn. rewrite F4. eexists. eapply agree_inv; [|exact I4]. repeat split.
Qed.
End T.

Lemma cell_zero ns l i : cell 0 (map (fun n => repeat 0 n) ns) l i = 0.
Proof.
  unfold cell. change ([] : list Q) with ((fun n => repeat 0 n) 0%nat). rewrite map_nth.
  generalize (nth l ns 0%nat). intros n. revert i. induction n as [|n IH]; intros [|i]; cbn; auto.
Qed.

Lemma fit_inv {W D C} (E : env W D C) (Mono : forall n, clock E n <= clock E (S n)) fuel y (s s' : fstate W D C) u :
  fit E fuel y s = (s', Done u) -> exists tl, Inv E (f_tick s) (f_trace s) true (f_tip s') s' tl.
Proof.
  intros H. unfold fit in H.
  apply mbind_done in H. destruct H as (s1 & t & H1 & H). inversion H1; subst t s1; clear H1.
  apply mbind_done in H. destruct H as (s2 & u2 & H2 & H). inversion H2; subst u2 s2; clear H2.
  destruct (_ <=? _)%nat; [discriminate|].
  apply mbind_done in H. destruct H as (s3 & u3 & H3 & H). apply call_unit_done in H3 as (A1 & A2 & _). cbn in A1, A2.
  apply mbind_done in H. destruct H as (s4 & u4 & H4 & H). inversion H4; subst u4 s4; clear H4.
  apply mbind_done in H. destruct H as (s5 & u5 & H5 & H).
  eapply (loop_inv E Mono (f_tick s) (f_trace s) 0) in H5 as (tl5 & I5).
  - eapply finish_inv; eauto.
  - instantiate (1 := [(clock E (f_tick s), [EvGenerateMp])]). constructor; cbn; auto; try lra; try lia.
    + constructor; [left; cbn; lia|constructor].
    + intros l i. pose proof (cell_zero (levels E) l i) as Z. unfold cell in Z. rewrite Z. lra.
    + exists [], (clock E (f_tick s)), [EvGenerateMp]. split; auto. right. split; auto. eexists; split; reflexivity.
Qed.

Lemma sub_times_shape {W D C} (E : env W D C) fuel y (s s' : fstate W D C) u :
  fit E fuel y s = (s', Done u) -> map (@length Q) (f_tsp s') = levels E.
Proof.
  intros H. destruct (fit_loop_state _ _ _ _ _ _ H) as (Hy & s2 & s3 & A1 & A2 & A3 & A4 & A5 & A6 & A7 & A8 & A9 & L & Fi).
  destruct (loop_spec E _ _ _ _ L A6 A5) as (evs & e & Lt & Dl & Eo & Et).
  destruct (finish_spec E _ _ _ Fi) as (Df & _).
  pose proof (d_shape2 _ _ _ Df) as D1. pose proof (d_shape2 _ _ _ Dl) as D2. cbn in D1, D2. rewrite D1, D2, A8. apply shape_zero.
Qed.

Section Stop.
Context {D C : Type}.
Notation ev := (event D C).
Lemma alone_total (dur : ev -> Q) (p : ev -> bool) es : alone es ->
  (forall x, is_offer x = true -> p x = false) \/ p = is_offer ->
  (if holds p es then qsum dur es else 0) == total_duration dur p es.
Proof.
  intros [H|H] Hp.
  - destruct es as [|x [|? ?]]; cbn in *; try lia; [lra|]. unfold total_duration. cbn. destruct (p x); cbn; lra.
  - unfold total_duration, holds. destruct Hp as [Hp| ->].
    + assert (N : existsb p es = false /\ filter p es = []) by (clear - H Hp; induction es as [|x es IH]; cbn in *; auto; apply andb_true_iff in H as [H1 H2];
        rewrite (Hp x H1); cbn; auto). destruct N as [-> ->]. cbn. lra.
    + assert (N : filter is_offer es = es) by (clear - H; induction es as [|x es IH]; cbn in *; auto; apply andb_true_iff in H as [-> H2]; f_equal; auto).
      rewrite N. destruct es as [|x es]; cbn in *; [lra|]. apply andb_true_iff in H as [-> _]. cbn. lra.
Qed.

Lemma spent_stop (dur : ev -> Q) (p : ev -> bool) (tl : timeline) :
  (forall x, is_offer x = true -> p x = false) \/ p = is_offer ->
  Forall (fun qe => alone (snd qe)) tl -> stopwatch dur tl -> forall tl0 q, tl = tl0 ++ [(q, [])] ->
  spent (holds p) tl == total_duration dur p (concat (map snd tl)) /\ spent idle tl == 0.
Proof.
  intros Hp. induction tl as [|[q1 e1] tl IH]; intros Al St tl0 q E; [destruct tl0; discriminate|].
  inversion Al as [|? ? A1 A2]; subst. cbn [spent]. destruct tl0 as [|x tl0]; cbn in E.
  - injection E as -> -> ->. cbn. lra.
  - injection E as _ ->. assert (St' : stopwatch dur (tl0 ++ [(q, [])])) by (intros k a b Ha Hb; exact (St (S k) a b Ha Hb)).
    destruct (IH A2 St' tl0 q eq_refl) as [I1 I2].
    assert (exists q2 e2 tl2, tl0 ++ [(q, [])] = (q2, e2) :: tl2) as (q2 & e2 & tl2 & Et) by (destruct tl0 as [|[a b] ?]; cbn; eauto).
    pose proof (St 0%nat (q1, e1) (q2, e2) eq_refl) as S0. cbn [nth_error] in S0. rewrite Et in S0. specialize (S0 eq_refl). cbn [fst snd] in S0.
    rewrite Et in *. cbn [fst snd]. cbn [map concat] in *. unfold total_duration in *. rewrite filter_app, qsum_app, I1, I2.
    pose proof (alone_total dur p e1 A1 Hp) as At. unfold total_duration in At. cbn [snd] in *. rewrite <- At. split.
    + destruct (holds p e1); lra.
    + destruct e1; cbn in *; lra.
Qed.
End Stop.

Lemma fit_generates {W D C} (E : env W D C) fuel y (s s' : fstate W D C) u :
  fit E fuel y s = (s', Done u) -> exists w, c_generate_mp E (f_world s) = Ok w.
Proof.
  intros H. rewrite fit_unfold in H. destruct (_ <=? _)%nat; [discriminate|].
  destruct (c_generate_mp E (f_world s)) as [w|]; [eauto|discriminate].
Qed.

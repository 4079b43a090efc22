(** Pricing models as symbolic 0/1 programs: every variable has a name, constraints are sums over names. *)
From Verif Require Import Base Lp LpProofs TreeModel TreePricingModel.
Open Scope nat_scope.

(** z and y of a row, y of a cut, (node, split), class. *)
Inductive vkind := VZ (i : nat) | VY (i : nat) | VC (i : nat) | VU (n k : nat) | VW (t : nat).
Lemma vkind_eq_dec (a b : vkind) : {a = b} + {a <> b}.
Proof. decide equality; apply Nat.eq_dec. Defined.
Definition veqb (a b : vkind) : bool := if vkind_eq_dec a b then true else false.
Lemma veqb_true a b : veqb a b = true <-> a = b.
Proof. unfold veqb. destruct (vkind_eq_dec a b); split; congruence. Qed.
Lemma veqb_refl a : veqb a a = true.
Proof. apply veqb_true. reflexivity. Qed.
Lemma veqb_false a b : a <> b -> veqb a b = false.
Proof. unfold veqb. destruct (vkind_eq_dec a b); congruence. Qed.

Definition scon := (option Q * option Q * list (vkind * Q))%type.

(** The index of a name. *)
Fixpoint at_ (names : list vkind) (kd : vkind) : nat :=
  match names with [] => 0 | a :: l => if veqb a kd then 0 else S (at_ l kd) end.
Lemma at_nth names kd : In kd names -> nth_error names (at_ names kd) = Some kd.
Proof.
  induction names as [|a l IH]; [intros []|]. cbn [at_]. destruct (veqb a kd) eqn:E; [apply veqb_true in E; subst; reflexivity|].
  intros [->|H]; [rewrite veqb_refl in E; discriminate|]. apply IH. auto.
Qed.
Lemma at_lt names kd : In kd names -> at_ names kd < length names.
Proof. intros H. apply nth_error_Some. rewrite at_nth by auto. discriminate. Qed.
Lemma at_of_nth names v kd : NoDup names -> nth_error names v = Some kd -> at_ names kd = v.
Proof.
  intros Hn H. rewrite NoDup_nth_error in Hn. apply Hn; [apply at_lt; eapply nth_error_In; eauto|].
  rewrite at_nth by (eapply nth_error_In; eauto). auto.
Qed.
Lemma at_app names more kd : In kd names -> at_ (names ++ more) kd = at_ names kd.
Proof.
  induction names as [|a l IH]; [intros []|]. cbn [at_ app]. destruct (veqb a kd) eqn:E; auto.
  intros [->|H]; [rewrite veqb_refl in E; discriminate|]. rewrite IH; auto.
Qed.
Lemma at_new names kd : ~ In kd names -> at_ (names ++ [kd]) kd = length names.
Proof.
  induction names as [|a l IH]; cbn [at_ app length]; [rewrite veqb_refl; reflexivity|]. intros H. rewrite veqb_false by (intros ->; apply H; simpl; auto).
  rewrite IH; auto. intros Hin. apply H. simpl; auto.
Qed.
Lemma at_inj names a b : In a names -> In b names -> at_ names a = at_ names b -> a = b.
Proof. intros Ha Hb E. apply at_nth in Ha. apply at_nth in Hb. congruence. Qed.
Lemma nth_error_ext' {A} (l m : list A) : length l = length m -> (forall i, i < length l -> nth_error l i = nth_error m i) -> l = m.
Proof.
  revert m. induction l as [|a l IH]; intros [|b m] Hl H; try discriminate; auto. simpl in Hl.
  pose proof (H 0 ltac:(simpl; lia)) as H0. simpl in H0. injection H0 as ->. f_equal. apply IH; [lia|].
  intros i Hi. apply (H (S i)). simpl. lia.
Qed.
Lemma map_at names : NoDup names -> map (at_ names) names = seq 0 (length names).
Proof.
  intros Hn. apply nth_error_ext'; [rewrite map_length, seq_length; auto|]. intros i Hi. rewrite map_length in Hi.
  rewrite nth_error_map, seq_nth_error by auto. destruct (nth_error names i) as [kd|] eqn:E; [|apply nth_error_None in E; lia].
  cbn [option_map]. rewrite (at_of_nth names i kd Hn E). reflexivity.
Qed.

Lemma sum_names names (cf : nat -> Q) (C : vkind -> Q) (x : nat -> Q) : NoDup names ->
  (forall v kd, nth_error names v = Some kd -> cf v == C kd)%Q ->
  (linear (length names) cf x == qsum (fun kd => C kd * x (at_ names kd)) names)%Q.
Proof.
  intros Hn H. unfold linear. rewrite <- (map_at names Hn), qsum_map. apply qsum_ext. intros kd Hin.
  rewrite (H _ _ (at_nth names kd Hin)). reflexivity.
Qed.

(** * Constraints *)

Definition coef_of (terms : list (vkind * Q)) (kd : vkind) : Q := qsum (fun t => if veqb (fst t) kd then snd t else 0)%Q terms.
Definition con_ok (names : list vkind) (sc : scon) (k : lpcon) : Prop :=
  let '(lb, ub, terms) := sc in
  c_lb k = lb /\ c_ub k = ub /\ NoDup (map fst terms) /\ incl (map fst terms) names /\
  (forall v kd, nth_error names v = Some kd -> (c_coef k v == coef_of terms kd)%Q) /\
  (forall v, length names <= v -> (c_coef k v == 0)%Q).
Definition bv : lpvar := mkVar (Some 0%Q) (Some 1%Q) true.
Record sym (names : list vkind) (scons : list scon) (m : lp) : Prop := {
  sy_vars : lp_vars m = repeat bv (length names);
  sy_nodup : NoDup names;
  sy_cons : Forall2 (con_ok names) scons (lp_cons m)
}.
Definition term_sum (val : vkind -> Q) (terms : list (vkind * Q)) : Q := qsum (fun t => snd t * val (fst t))%Q terms.

Lemma qsum_single {A} (f : A -> Q) (dec : forall a b : A, {a = b} + {a <> b}) l a : NoDup l -> In a l ->
  (qsum (fun b => if dec a b then f b else 0) l == f a)%Q.
Proof.
  induction l as [|b l IH]; intros Hn Hin; [destruct Hin|]. inversion Hn; subst. rewrite qsum_cons. destruct (dec a b) as [<-|Hne].
  - rewrite (qsum_zero (fun b => if dec a b then f b else 0)%Q l); [lra|]. intros b Hb. destruct (dec a b) as [<-|]; [contradiction|reflexivity].
  - destruct Hin as [->|Hin]; [congruence|]. rewrite IH; auto. lra.
Qed.

Lemma term_names names terms (val : vkind -> Q) : NoDup names -> incl (map fst terms) names ->
  (qsum (fun kd => coef_of terms kd * val kd) names == term_sum val terms)%Q.
Proof.
  intros Hn Hi. unfold coef_of, term_sum.
  transitivity (qsum (fun kd => qsum (fun t => if vkind_eq_dec (fst t) kd then snd t * val kd else 0) terms) names)%Q.
  { apply qsum_ext. intros kd _. rewrite <- qsum_scale_r. apply qsum_ext. intros t _. unfold veqb. destruct (vkind_eq_dec (fst t) kd); lra. }
  rewrite qsum_swap. apply qsum_ext. intros t Ht.
  apply (qsum_single (fun kd => snd t * val kd)%Q vkind_eq_dec names (fst t)); auto. apply Hi, in_map. auto.
Qed.

Lemma sym_activity names scons m sc k x : sym names scons m -> con_ok names sc k ->
  (activity m k x == term_sum (fun kd => x (at_ names kd)) (snd sc))%Q.
Proof.
  intros S. destruct sc as [[lb ub] terms]. intros (_ & _ & _ & Hi & Hc & _). cbn [snd]. unfold activity, num_vars.
  rewrite (sy_vars _ _ _ S), repeat_length. rewrite (sum_names names _ (coef_of terms) x (sy_nodup _ _ _ S) Hc).
  apply (term_names names terms (fun kd => x (at_ names kd)) (sy_nodup _ _ _ S) Hi).
Qed.

(** A point: its value for each name. *)
Definition sat_con (val : vkind -> Q) (sc : scon) : Prop := in_bounds (fst (fst sc)) (snd (fst sc)) (term_sum val (snd sc)).
Definition zero_one (q : Q) : Prop := (q == 0)%Q \/ (q == 1)%Q.

Lemma bool_int (q : Q) : (0 <= q)%Q -> (q <= 1)%Q -> (exists z : Z, q == inject_Z z)%Q -> zero_one q.
Proof.
  intros H0 H1 (z & Ez). rewrite Ez in H0, H1. change 0%Q with (inject_Z 0) in H0. change 1%Q with (inject_Z 1) in H1.
  rewrite <- Zle_Qle in H0, H1. assert (z = 0 \/ z = 1)%Z as [->| ->] by lia; [left|right]; rewrite Ez; reflexivity.
Qed.

Lemma sym_feasible names scons m x : sym names scons m ->
  (ip_feasible m x <-> (forall kd, In kd names -> zero_one (x (at_ names kd))) /\
                       Forall (sat_con (fun kd => x (at_ names kd))) scons).
Proof.
  intros S. pose proof (sy_vars _ _ _ S) as Hv. pose proof (sy_nodup _ _ _ S) as Hn. pose proof (sy_cons _ _ _ S) as HF.
  assert (Hvar : forall j v, nth_error (lp_vars m) j = Some v -> v = bv /\ exists kd, In kd names /\ at_ names kd = j).
  { intros j v Hj. rewrite Hv in Hj. split; [apply nth_error_In, repeat_spec in Hj; auto|].
    assert (Hl : j < length names) by (rewrite <- (repeat_length bv (length names)); apply nth_error_Some; congruence).
    destruct (nth_error names j) as [kd|] eqn:E; [|apply nth_error_None in E; lia]. exists kd. split; [eapply nth_error_In; eauto|].
    eapply at_of_nth; eauto. }
  assert (Hvar' : forall kd, In kd names -> nth_error (lp_vars m) (at_ names kd) = Some bv).
  { intros kd Hin. rewrite Hv. apply nth_error_repeat, at_lt. auto. }
  assert (Hcon : (forall c k, nth_error (lp_cons m) c = Some k -> in_bounds (c_lb k) (c_ub k) (activity m k x)) <->
                 Forall (sat_con (fun kd => x (at_ names kd))) scons).
  { assert (Hone : forall sc k, con_ok names sc k -> (in_bounds (c_lb k) (c_ub k) (activity m k x) <-> sat_con (fun kd => x (at_ names kd)) sc)).
    { intros sc k Hk. pose proof (sym_activity names scons m sc k x S Hk) as Ha. destruct sc as [[lb ub] ts]. destruct Hk as (-> & -> & _).
      unfold sat_con. cbn [fst snd] in *. unfold in_bounds. split; intros [H1 H2]; split; intros b Hb; [rewrite <- Ha|rewrite <- Ha|rewrite Ha|rewrite Ha]; auto. }
    split.
    - intros H. apply Forall_forall. intros sc Hin. destruct (In_nth_error _ _ Hin) as [i Hi].
      destruct (Forall2_nth_error _ _ _ _ _ HF Hi) as (k & Hk & Hck). apply (Hone sc k Hck). eauto.
    - intros H i k Hk. assert (Hex : exists sc, nth_error scons i = Some sc /\ con_ok names sc k).
      { clear - HF Hk. revert i Hk. induction HF; intros [|i] Hk; try discriminate; cbn in *; [injection Hk as <-; eauto|eauto]. }
      destruct Hex as (sc & Hsc & Hck). rewrite Forall_forall in H. apply (Hone sc k Hck), H. eapply nth_error_In; eauto. }
  unfold ip_feasible, lp_feasible. rewrite Hcon. split.
  - intros [[Hb Hc] Hz]. split; auto. intros kd Hin. pose proof (Hvar' kd Hin) as Hv'. destruct (Hb _ _ Hv') as [H0 H1].
    apply bool_int; [apply H0; reflexivity|apply H1; reflexivity|apply (Hz _ _ Hv'); reflexivity].
  - intros [Hz Hc]. split; [split; auto|].
    + intros j v Hj. destruct (Hvar j v Hj) as (-> & kd & Hin & <-). destruct (Hz kd Hin) as [E|E]; split; intros b Hb; injection Hb as <-; rewrite E; lra.
    + intros j v Hj _. destruct (Hvar j v Hj) as (_ & kd & Hin & <-). destruct (Hz kd Hin) as [E|E]; [exists 0%Z|exists 1%Z]; rewrite E; reflexivity.
Qed.

(** * Building *)

Lemma con_ok_more names more sc k : NoDup (names ++ more) -> con_ok names sc k -> con_ok (names ++ more) sc k.
Proof.
  destruct sc as [[lb ub] ts]. intros Hn (H1 & H2 & H3 & H4 & H5 & H6). repeat split; auto.
  - intros a Ha. apply in_or_app. left. auto.
  - intros v kd Hv. destruct (Nat.lt_ge_cases v (length names)) as [Hl|Hl].
    + rewrite nth_error_app1 in Hv by auto. auto.
    + rewrite H6 by auto. rewrite nth_error_app2 in Hv by auto. apply nth_error_In in Hv. unfold coef_of. symmetry. apply qsum_zero.
      intros t Ht. rewrite veqb_false; [reflexivity|]. intros <-. assert (Hin : In (fst t) names) by (apply H4, in_map; auto).
      clear - Hn Hv Hin. induction names as [|a l IH]; [destruct Hin|]. cbn in Hn. inversion Hn; subst. destruct Hin as [->|Hin]; [|auto].
      apply H1. apply in_or_app. auto.
  - intros v Hv. apply H6. rewrite app_length in Hv. lia.
Qed.
Lemma Forall2_weaken {A B} (P R : A -> B -> Prop) l m : (forall a b, P a b -> R a b) -> Forall2 P l m -> Forall2 R l m.
Proof. intros H HF. induction HF; constructor; auto. Qed.
Lemma sym_var names scons m kd : sym names scons m -> ~ In kd names ->
  fst (bool_var m) = length names /\ sym (names ++ [kd]) scons (snd (bool_var m)).
Proof.
  intros S Hk. unfold bool_var, new_var. cbn [fst snd]. rewrite (sy_vars _ _ _ S), repeat_length. split; auto.
  assert (Hn : NoDup (names ++ [kd])) by (apply NoDup_snoc; auto; exact (sy_nodup _ _ _ S)).
  constructor; auto; cbn [lp_vars lp_cons].
  - rewrite app_length, repeat_app. reflexivity.
  - eapply Forall2_weaken; [|exact (sy_cons _ _ _ S)]. intros. apply con_ok_more; auto.
Qed.

(** Terms over names and over variables. *)
Definition conc (names : list vkind) (ts : list (vkind * Q)) : list (nat * Q) := map (fun t => (at_ names (fst t), snd t)) ts.
Lemma last_sum terms v : NoDup (map fst terms) -> (last_coef terms v == sum_coef terms v)%Q.
Proof.
  unfold last_coef, sum_coef. intros Hn.
  assert (G : forall f, (fold_left (fun f t => upd f (fst t) (snd t)) terms f v ==
                 qsum (fun t => if fst t =? v then snd t else 0) terms + (if memb v (map fst terms) then 0 else f v))%Q).
  { induction terms as [|[w q] ts IH]; intros f; [cbn; lra|]. cbn [fold_left map fst snd]. cbn in Hn. inversion Hn; subst.
    rewrite (IH H2), qsum_cons. cbn [fst snd]. unfold memb at 2. cbn [existsb]. fold (memb v (map fst ts)).
    destruct (Nat.eqb_spec w v) as [->|Hne].
    - assert (Hm : memb v (map fst ts) = false) by (apply memb_false; auto). rewrite Hm, Nat.eqb_refl, upd_same. cbn [orb].
      rewrite (qsum_zero (fun t : nat * Q => if fst t =? v then snd t else 0)%Q ts); [lra|]. intros [w' q'] Ht. cbn [fst snd].
      destruct (Nat.eqb_spec w' v) as [->|]; [|reflexivity]. exfalso. apply H1. change v with (fst (v, q')). apply in_map. auto.
    - rewrite upd_other by auto. destruct (Nat.eqb_spec v w); [congruence|]. cbn [orb]. lra. }
  rewrite G. destruct (memb v (map fst terms)); lra.
Qed.
Lemma conc_coef names ts v kd : NoDup names -> incl (map fst ts) names -> nth_error names v = Some kd ->
  (sum_coef (conc names ts) v == coef_of ts kd)%Q.
Proof.
  intros Hn Hi Hv. unfold sum_coef, coef_of, conc. rewrite qsum_map. apply qsum_ext. intros t Ht. cbn [fst snd].
  assert (Hin : In (fst t) names) by (apply Hi, in_map; auto). destruct (Nat.eqb_spec (at_ names (fst t)) v) as [E|Hne].
  - rewrite <- E, at_nth in Hv by auto. injection Hv as ->. rewrite veqb_refl. reflexivity.
  - rewrite veqb_false; [reflexivity|]. intros E. apply Hne. rewrite E. eapply at_of_nth; eauto.
Qed.
Lemma conc_out names ts v : incl (map fst ts) names -> length names <= v -> (sum_coef (conc names ts) v == 0)%Q.
Proof.
  intros Hi Hv. unfold sum_coef, conc. rewrite qsum_map. apply qsum_zero. intros t Ht. cbn [fst snd].
  destruct (Nat.eqb_spec (at_ names (fst t)) v) as [E|]; [|reflexivity].
  assert (at_ names (fst t) < length names) by (apply at_lt, Hi, in_map; auto). lia.
Qed.
Lemma conc_nodup names ts : incl (map fst ts) names -> NoDup (map fst ts) -> NoDup (map fst (conc names ts)).
Proof.
  intros Hi Hn. unfold conc. rewrite map_map. cbn [fst]. rewrite <- map_map. induction (map fst ts) as [|a l IH]; cbn; constructor.
  - rewrite in_map_iff. intros (b & E & Hb). inversion Hn; subst. apply at_inj in E; [congruence| |]; apply Hi; simpl; auto.
  - inversion Hn; subst. apply IH; auto. intros b Hb. apply Hi. simpl; auto.
Qed.

Lemma sym_con c names scons m lb ub ts : sym names scons m -> incl (map fst ts) names -> NoDup (map fst ts) ->
  sym names (scons ++ [(lb, ub, ts)]) (add_con c lb ub (conc names ts) m).
Proof.
  intros S Hi Hn. unfold add_con. constructor; cbn [lp_vars lp_cons]; [exact (sy_vars _ _ _ S)|exact (sy_nodup _ _ _ S)|].
  apply Forall2_app; [exact (sy_cons _ _ _ S)|]. constructor; [|constructor]. unfold con_ok. cbn [c_lb c_ub c_coef].
  pose proof (sy_nodup _ _ _ S) as Hnn.
  assert (Hboth : forall v, ((if is_sat c then sum_coef (conc names ts) else last_coef (conc names ts)) v == sum_coef (conc names ts) v)%Q).
  { intros v. destruct (is_sat c); [reflexivity|]. apply last_sum, conc_nodup; auto. }
  repeat split; auto.
  - intros v kd Hv. rewrite Hboth. apply conc_coef; auto.
  - intros v Hv. rewrite Hboth. apply conc_out; auto.
Qed.

(** Objective coefficients: those of the solver and the remembered ones (CSat). *)
Definition scl (c : pclass) (q : Q) : Q := if is_sat c then inject_Z (scale_obj_coeff q) else q.
Record objs (c : pclass) (names : list vkind) (cl co : vkind -> Q) (mo : objective) : Prop := {
  ob_lp : forall v kd, nth_error names v = Some kd -> lp_obj (fst mo) v = scl c (cl kd);
  ob_orig : is_sat c = true -> forall v kd, nth_error names v = Some kd -> snd mo v = co kd;
  ob_lp0 : forall v, length names <= v -> lp_obj (fst mo) v = 0%Q;
  ob_orig0 : is_sat c = true -> forall v, length names <= v -> snd mo v = 0%Q
}.
Lemma scl0 c : scl c 0 = 0%Q.
Proof. unfold scl. destruct (is_sat c); reflexivity. Qed.
Lemma put_sym c v q names scons mo : sym names scons (fst mo) -> sym names scons (fst (put c v q mo)).
Proof. intros [S1 S2 S3]. unfold put, set_obj. destruct (is_sat c); constructor; auto. Qed.
Lemma put_frame c v q mo : lp_off (fst (put c v q mo)) = lp_off (fst mo) /\ lp_max (fst (put c v q mo)) = lp_max (fst mo) /\
  lp_cons (fst (put c v q mo)) = lp_cons (fst mo) /\ lp_vars (fst (put c v q mo)) = lp_vars (fst mo).
Proof. unfold put, set_obj. destruct (is_sat c); cbn; auto. Qed.
(** A new variable without coefficient (coefficient 0). *)
Lemma objs_new c names cl co m o kd : objs c names cl co (m, o) -> cl kd = 0%Q -> co kd = 0%Q ->
  objs c (names ++ [kd]) cl co (snd (bool_var m), o).
Proof.
  intros [H1 H2 H3 H4] E1 E2. cbn [fst snd] in *. unfold bool_var, new_var. constructor; cbn [fst snd lp_obj].
  - intros v k Hv. destruct (Nat.lt_ge_cases v (length names)) as [Hl|Hl].
    + rewrite nth_error_app1 in Hv by auto. apply H1. auto.
    + rewrite nth_error_app2 in Hv by auto. destruct (v - length names) as [|j] eqn:Ej; [|destruct j; discriminate]. injection Hv as <-.
      rewrite (H3 v Hl), E1, scl0. reflexivity.
  - intros Hs v k Hv. destruct (Nat.lt_ge_cases v (length names)) as [Hl|Hl].
    + rewrite nth_error_app1 in Hv by auto. apply H2; auto.
    + rewrite nth_error_app2 in Hv by auto. destruct (v - length names) as [|j] eqn:Ej; [|destruct j; discriminate]. injection Hv as <-.
      rewrite E2. exact (H4 Hs v Hl).
  - intros v Hv. apply H3. rewrite app_length in Hv. lia.
  - intros Hs v Hv. apply (H4 Hs). rewrite app_length in Hv. lia.
Qed.
Definition vset (f : vkind -> Q) (kd : vkind) (q : Q) (k : vkind) : Q := if vkind_eq_dec k kd then q else f k.
Lemma objs_put c names cl co mo kd q : NoDup names -> In kd names -> objs c names cl co mo ->
  objs c names (vset cl kd q) (vset co kd q) (put c (at_ names kd) q mo).
Proof.
  intros Hn Hin [H1 H2 H3 H4]. pose proof (at_lt names kd Hin) as Hlt.
  assert (Hcase : forall v k, nth_error names v = Some k -> (v = at_ names kd <-> k = kd)).
  { intros v k Hv. split; intros E.
    - rewrite E, at_nth in Hv by auto. congruence.
    - subst k. symmetry. eapply at_of_nth; eauto. }
  constructor; unfold put, scl, vset in *; cbn [fst snd].
  - intros v k Hv. destruct (is_sat c) eqn:Es; cbn [fst set_obj lp_obj]; (destruct (vkind_eq_dec k kd) as [E|Hne];
      [apply (Hcase v k Hv) in E; subst v; rewrite upd_same; reflexivity
      |rewrite upd_other by (intros E; apply Hne, (Hcase v k Hv); auto); apply (H1 v k Hv)]).
  - intros Hs v k Hv. rewrite Hs in *. cbn [snd]. destruct (vkind_eq_dec k kd) as [E|Hne].
    + apply (Hcase v k Hv) in E. subst v. rewrite upd_same. reflexivity.
    + rewrite upd_other by (intros E; apply Hne, (Hcase v k Hv); auto). apply (H2 eq_refl v k Hv).
  - intros v Hv. destruct (is_sat c); cbn [fst set_obj lp_obj]; rewrite upd_other by lia; auto.
  - intros Hs v Hv. rewrite Hs in *. cbn [snd]. rewrite upd_other by lia. auto.
Qed.
Lemma objs_ext c names cl co cl' co' mo : objs c names cl co mo -> (forall kd, In kd names -> cl kd = cl' kd /\ co kd = co' kd) ->
  objs c names cl' co' mo.
Proof.
  intros [H1 H2 H3 H4] E. constructor; auto.
  - intros v kd Hv. rewrite (H1 v kd Hv). f_equal. apply E. eapply nth_error_In; eauto.
  - intros Hs v kd Hv. rewrite (H2 Hs v kd Hv). apply E. eapply nth_error_In; eauto.
Qed.
(** A new variable with its coefficient. *)
Lemma objs_add c names cf m o kd q : NoDup (names ++ [kd]) -> cf kd = q -> objs c names cf cf (m, o) ->
  objs c (names ++ [kd]) cf cf (put c (length names) q (snd (bool_var m), o)).
Proof.
  intros Hn <- H.
  assert (Hk : ~ In kd names).
  { apply NoDup_remove_2 in Hn. rewrite app_nil_r in Hn. auto. }
  assert (H0 : objs c names (vset cf kd 0%Q) (vset cf kd 0%Q) (m, o)).
  { eapply objs_ext; [exact H|]. intros k Hin. unfold vset. destruct (vkind_eq_dec k kd); [subst; contradiction|auto]. }
  apply (objs_new c names _ _ m o kd) in H0; [|unfold vset; destruct (vkind_eq_dec kd kd); congruence..].
  apply (objs_put c _ _ _ _ kd (cf kd) Hn) in H0; [|apply in_or_app; simpl; auto]. rewrite at_new in H0 by auto.
  eapply objs_ext; [exact H0|]. intros k _. unfold vset. destruct (vkind_eq_dec k kd); subst; auto.
Qed.

Lemma sym_objective names scons m o c cl co x : sym names scons m -> objs c names cl co (m, o) ->
  (objective_value m x == qsum (fun kd => scl c (cl kd) * x (at_ names kd)) names + lp_off m)%Q.
Proof.
  intros S H. unfold objective_value, num_vars. rewrite (sy_vars _ _ _ S), repeat_length.
  rewrite (sum_names names _ (fun kd => scl c (cl kd)) x (sy_nodup _ _ _ S)); [reflexivity|].
  intros v kd Hv. pose proof (ob_lp _ _ _ _ _ H v kd Hv) as E. cbn [fst] in E. rewrite E. reflexivity.
Qed.

(** Loops that never fail. *)
Lemma for_each_total {A S} (l : list A) (body : A -> S -> res S) (P : list A -> S -> Prop) :
  (forall pre a post s, l = pre ++ a :: post -> P pre s -> exists s', body a s = Ok s' /\ P (pre ++ [a]) s') ->
  forall s, P [] s -> exists s', for_each l body s = Ok s' /\ P l s'.
Proof.
  intros Hb. assert (G : forall post pre s, l = pre ++ post -> P pre s -> exists s', for_each post body s = Ok s' /\ P l s').
  { induction post as [|a post IH]; intros pre s E Hp.
    - exists s. rewrite app_nil_r in E. subst. auto.
    - destruct (Hb pre a post s E Hp) as (s1 & E1 & P1). cbn [for_each]. rewrite E1. cbn [bind].
      apply (IH (pre ++ [a])); auto. rewrite <- app_assoc. auto. }
  intros s Hs. apply (G l [] s); auto.
Qed.
Lemma map_res_total {A B} (f : A -> res B) (g : A -> B) l : (forall a, In a l -> f a = Ok (g a)) -> map_res f l = Ok (map g l).
Proof.
  induction l as [|a l IH]; intros H; [reflexivity|]. cbn [map_res map]. rewrite (H a) by (simpl; auto). cbn [bind].
  rewrite IH by (intros; apply H; simpl; auto). reflexivity.
Qed.
